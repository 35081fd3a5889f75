(** Vocabulary for C91: clusters that say nothing new. *)
From Verif Require Import Base Types SpecProps.

(** What the one gives is what the other gives. *)
Definition nothing_new (c q : reg_props) : Prop :=
  (rp_size c = None \/ rp_size c = rp_size q) /\ (rp_access c = None \/ rp_access c = rp_access q) /\
  (rp_protection c = None \/ rp_protection c = rp_protection q) /\
  (rp_reset_value c = None \/ rp_reset_value c = rp_reset_value q) /\
  (rp_reset_mask c = None \/ rp_reset_mask c = rp_reset_mask q).

(** Neither the element, if it is a cluster, nor any cluster in it gives a property of its own that is not [q]'s. *)
Inductive adds_nothing (q : reg_props) : register_cluster -> Prop :=
  | an_register r : adds_nothing q (RCRegister r)
  | an_cluster (c : cluster) : nothing_new (c_default_properties (info c)) q ->
      Forall (adds_nothing q) (c_children (info c)) -> adds_nothing q (RCCluster c).
(** ... nor any cluster of the device, where [q] is what holds in its peripheral *)
Definition clusters_add_nothing (d : device) : Prop :=
  forall p rs q, In p (d_peripherals d) -> p_registers (info p) = Some rs ->
    resolved [p_default_properties (info p); d_default_properties d] q -> Forall (adds_nothing q) rs.
