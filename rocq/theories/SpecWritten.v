(** Vocabulary for C102: arrays written out. *)
From Verif Require Import Base Types SpecArray SpecExpand.

Definition cluster_with (i : cluster_info) (kids : list register_cluster) : cluster_info :=
  {| c_name := c_name i; c_description := c_description i; c_alternate_cluster := c_alternate_cluster i;
     c_header_struct_name := c_header_struct_name i; c_address_offset := c_address_offset i;
     c_default_properties := c_default_properties i; c_children := kids; c_derived_from := c_derived_from i |}.
(** An element is left as it is, or its instances are written one after another. *)
Definition repeated {A} (one : A -> dim_element -> N -> A -> Prop) (x : maybe_array A) (l : list (maybe_array A)) : Prop :=
  l = [x] \/ exists is, instances_of one x is /\ l = map Single is.
Section Written.
  Variable m : mode.
  (** Instance [k] of a cluster with its content. What else there is in a cluster, no expansion shows. *)
  Definition cluster_copy (x : cluster_info) (d : dim_element) (k : N) (y : cluster_info) : Prop :=
    cluster_instance_of m x d k y /\ c_children y = c_children x /\ c_derived_from y = c_derived_from x.
  (** Some of the arrays, at any depth, are written out. *)
  Definition fields_written (o o' : option (list field)) : Prop :=
    match o, o' with
    | None, None => True
    | Some fs, Some fs' => exists ls, Forall2 (repeated (field_instance_of m)) fs ls /\ fs' = List.concat ls
    | _, _ => False
    end.
  Inductive child_written : register_cluster -> list register_cluster -> Prop :=
    | cw_register r o l : fields_written (r_fields (info r)) o ->
        repeated (register_instance_of m) (mapped (fun i => register_with i o) r) l -> child_written (RCRegister r) (map RCRegister l)
    | cw_cluster (c : cluster) ls l : Forall2 child_written (c_children (info c)) ls ->
        repeated cluster_copy (mapped (fun i => cluster_with i (List.concat ls)) c) l -> child_written (RCCluster c) (map RCCluster l).
  Definition peripheral_written (p : peripheral) (l : list peripheral) : Prop :=
    exists o, match p_registers (info p), o with
              | None, None => True
              | Some rs, Some rs' => exists ls, Forall2 child_written rs ls /\ rs' = List.concat ls
              | _, _ => False
              end /\ repeated (peripheral_instance_of m) (mapped (fun i => peripheral_with i o) p) l.
  Definition device_written (d d' : device) : Prop :=
    same_but_peripherals d d' /\ exists ls, Forall2 peripheral_written (d_peripherals d) ls /\ d_peripherals d' = List.concat ls.
End Written.

(** No array is left. *)
Inductive child_single : register_cluster -> Prop :=
  | cs_register i : Forall (fun f => is_single f = true) (or_empty (r_fields i)) -> child_single (RCRegister (Single i))
  | cs_cluster i : Forall child_single (c_children i) -> child_single (RCCluster (Single i)).
Definition device_single (d : device) : Prop :=
  Forall (fun p => is_single p = true /\ Forall child_single (or_empty (p_registers (info p)))) (d_peripherals d).

(** No array of peripherals, clusters or registers is empty. *)
Definition some_there {A} (x : maybe_array A) : Prop := match x with Single _ => True | Array _ d => de_dim d <> 0 end.
Inductive child_there : register_cluster -> Prop :=
  | ct_register r : some_there r -> child_there (RCRegister r)
  | ct_cluster (c : cluster) : some_there c -> Forall child_there (c_children (info c)) -> child_there (RCCluster c).
Definition device_there (d : device) : Prop :=
  Forall (fun p => some_there p /\ Forall child_there (or_empty (p_registers (info p)))) (d_peripherals d).
