(** Vocabulary for C85: the properties of the registers a description expands to. *)
From Verif Require Import Base Types SpecExpand SpecProps.

(** How often an element stands in an expanded description *)
Definition copies {A} (x : maybe_array A) : nat := match x with Single _ => 1%nat | Array _ d => N.to_nat (de_dim d) end.

(** The properties of the registers an element stands for, one by one and in order; [levels] are the
    defaults of the elements around it, innermost first. *)
Inductive leaves : list reg_props -> register_cluster -> list reg_props -> Prop :=
  | lv_register levels (r : register) q : resolved (r_properties (info r) :: levels) q ->
      leaves levels (RCRegister r) (repeat q (copies r))
  | lv_cluster levels (c : cluster) qss :
      Forall2 (leaves (c_default_properties (info c) :: levels)) (c_children (info c)) qss ->
      leaves levels (RCCluster c) (List.concat (repeat (List.concat qss) (copies c))).
(** ... for each of the peripherals one stands for *)
Definition leaves_of_peripheral (top : reg_props) (p : peripheral) (l : list (list reg_props)) : Prop :=
  exists qss, Forall2 (leaves [p_default_properties (info p); top]) (or_empty (p_registers (info p))) qss /\
    l = repeat (List.concat qss) (copies p).

(** No peripheral, cluster or register is derived. *)
Inductive plain_rc : register_cluster -> Prop :=
  | pl_register r : r_derived_from (info r) = None -> plain_rc (RCRegister r)
  | pl_cluster (c : cluster) : c_derived_from (info c) = None -> Forall plain_rc (c_children (info c)) -> plain_rc (RCCluster c).
Definition plain_device (d : device) : Prop :=
  Forall (fun p => p_derived_from (info p) = None /\ Forall plain_rc (or_empty (p_registers (info p)))) (d_peripherals d).

(** The properties of the registers of an expanded peripheral *)
Definition flat_properties (p : peripheral) : list reg_props :=
  flat_map (fun rc => match rc with RCRegister r => [r_properties (info r)] | RCCluster _ => [] end)
    (or_empty (p_registers (info p))).

(** [q] gives every property that [top] gives, though perhaps another value. *)
Definition at_least (top q : reg_props) : Prop :=
  (rp_size top <> None -> rp_size q <> None) /\ (rp_access top <> None -> rp_access q <> None) /\
  (rp_protection top <> None -> rp_protection q <> None) /\ (rp_reset_value top <> None -> rp_reset_value q <> None) /\
  (rp_reset_mask top <> None -> rp_reset_mask q <> None).
