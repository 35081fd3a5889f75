(** Vocabulary for C37: elements whose parents are expanded in place. *)
From Verif Require Import Base Types SpecArray SpecDerive SpecExpand.

(** [rc] is a child with parents' path [ctx], none of which is derived. *)
Inductive stands (d : device) : list string -> register_cluster -> Prop :=
  | st_top p rc : In p (d_peripherals d) -> p_derived_from (info p) = None ->
      In rc (or_empty (p_registers (info p))) -> stands d [p_name (info p)] rc
  | st_in ctx (c : cluster) rc : stands d ctx (RCCluster c) -> c_derived_from (info c) = None ->
      In rc (c_children (info c)) -> stands d (ctx ++ [c_name (info c)]) rc.
Definition field_stands (d : device) (ctx : list string) (f : field) : Prop :=
  exists block r, ctx = block ++ [r_name (info r)] /\ stands d block (RCRegister r) /\
    r_derived_from (info r) = None /\ In f (or_empty (r_fields (info r))).
Definition values_stand (d : device) (ctx : list string) (e : enumerated_values) : Prop :=
  exists reg f, ctx = reg ++ [f_name (info f)] /\ field_stands d reg f /\
    f_derived_from (info f) = None /\ In e (f_enumerated_values (info f)).

(** The identity of an expanded peripheral. *)
Definition identity_kept (m : mode) (p : peripheral) (out : list peripheral_info) : Prop :=
  match dims p with
  | Some e => len_N out = de_dim e /\ forall k, k < de_dim e -> exists y idx, nth_N out k = Some y /\
      index_text e k idx /\ name_of_instance e (p_name (info p)) idx (p_name y) /\
      sum_is m (2 ^ 64) (p_base_address (info p) + k * de_increment e) (p_base_address y) /\
      p_alternate_peripheral y = p_alternate_peripheral (info p)
  | None => ~ occurs "%s" (p_name (info p)) -> exists y, out = [y] /\ p_name y = p_name (info p) /\
      p_base_address y = p_base_address (info p) /\ p_display_name y = p_display_name (info p) /\
      p_alternate_peripheral y = p_alternate_peripheral (info p)
  end.
