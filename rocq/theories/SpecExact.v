(** Vocabulary for C77, independent of the expansion code. *)
From Verif Require Import Base Types SpecArray SpecDerive SpecExpand.

(** No path of the device means two different elements of one kind, and the sets of
    values of a register are told apart by their names across its fields. *)
Record unambiguous (d : device) : Prop := {
  un_peripherals : forall path x y, peripheral_placed d path x -> peripheral_placed d path y -> x = y;
  un_clusters : forall path x y, cluster_placed d path x -> cluster_placed d path y -> x = y;
  un_registers : forall path x y, register_placed d path x -> register_placed d path y -> x = y;
  un_fields : forall path x y, field_placed d path x -> field_placed d path y -> x = y;
  un_values : forall path x y, values_placed d path x -> values_placed d path y -> x = y;
  un_names : forall reg r f g n x y, register_placed d reg r ->
    In f (or_empty (r_fields (info r))) -> In g (or_empty (r_fields (info r))) ->
    values_placed d (reg ++ [f_name (info f); n]) x -> values_placed d (reg ++ [f_name (info g); n]) y ->
    f_name (info f) = f_name (info g) }.
