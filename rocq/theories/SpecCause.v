(** Vocabulary for C58: what in a device can make expansion fail. *)
From Verif Require Import Base Types SpecArray SpecExpand.

(** The children of a device at any depth, its fields and its values. *)
Inductive child_of (d : device) : register_cluster -> Prop :=
  | co_top p rc : In p (d_peripherals d) -> In rc (or_empty (p_registers (info p))) -> child_of d rc
  | co_in (c : cluster) rc : child_of d (RCCluster c) -> In rc (c_children (info c)) -> child_of d rc.
Definition field_of (d : device) (f : field) : Prop :=
  exists r, child_of d (RCRegister r) /\ In f (or_empty (r_fields (info r))).
Definition values_of (d : device) (e : enumerated_values) : Prop :=
  exists f, field_of d f /\ In e (f_enumerated_values (info f)).

(** The derivedFrom texts of fields, and of anything else. *)
Definition field_reference (d : device) (s : string) : Prop :=
  exists f, field_of d f /\ f_derived_from (info f) = Some s.
Definition other_reference (d : device) (s : string) : Prop :=
  (exists p, In p (d_peripherals d) /\ p_derived_from (info p) = Some s) \/
  (exists c : cluster, child_of d (RCCluster c) /\ c_derived_from (info c) = Some s) \/
  (exists r, child_of d (RCRegister r) /\ r_derived_from (info r) = Some s) \/
  (exists e, values_of d e /\ evs_derived_from e = Some s).

(** At least one index text per instance, if they are listed. *)
Definition enough (e : dim_element) : Prop :=
  forall l, de_index e = Some l -> de_dim e <= N.of_nat (List.length l).
Definition two_parts (s : string) : Prop := exists a b, cut "." s [a; b].
