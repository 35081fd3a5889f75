(** C23: modifying an element again with the same builder. *)
From Verif Require Import Base Types Validate Builders Setters TwiceProofs.

(** Modifying again with the same builder changes nothing and ends the same way, whether the first time succeeded or not. *)
Theorem C23_twice : forall l,
  (forall x b x' o, rp_modify x b l = (x', o) -> rp_modify x' b l = (x', o)) /\
  (forall x b x' o, ev_modify x b l = (x', o) -> ev_modify x' b l = (x', o)) /\
  (forall x b x' o, evs_modify x b l = (x', o) -> evs_modify x' b l = (x', o)) /\
  (forall x b x' o, de_modify x b l = (x', o) -> de_modify x' b l = (x', o)) /\
  (forall x b x' o, field_modify x b l = (x', o) -> field_modify x' b l = (x', o)) /\
  (forall x b x' o, register_modify x b l = (x', o) -> register_modify x' b l = (x', o)) /\
  (forall x b x' o, cluster_modify x b l = (x', o) -> cluster_modify x' b l = (x', o)) /\
  (forall x b x' o, ab_modify x b l = (x', o) -> ab_modify x' b l = (x', o)) /\
  (forall x b x' o, it_modify x b l = (x', o) -> it_modify x' b l = (x', o)) /\
  (forall x b x' o, peripheral_modify x b l = (x', o) -> peripheral_modify x' b l = (x', o)) /\
  (forall x b x' o, cpu_modify x b l = (x', o) -> cpu_modify x' b l = (x', o)) /\
  (forall x b x' o, device_modify x b l = (x', o) -> device_modify x' b l = (x', o)).
Proof.
  intros l. repeat apply conj; intros x b x' o H.
  - exact (props_twice x b l x' o H).
  - exact (value_twice x b l x' o H).
  - exact (values_twice x b l x' o H).
  - exact (dim_twice x b l x' o H).
  - exact (field_twice x b l x' o H).
  - exact (register_twice x b l x' o H).
  - exact (cluster_twice x b l x' o H).
  - exact (block_twice x b l x' o H).
  - exact (interrupt_twice x b l x' o H).
  - exact (peripheral_twice x b l x' o H).
  - exact (cpu_twice x b l x' o H).
  - exact (device_twice x b l x' o H).
Qed.
Print Assumptions C23_twice.

(** A modification that fails after changing the element. *)
Example C23_twice_example : exists x x' e,
  field_modify x (chain field_set field_new [with_field_bit_width 0; with_field_description (Some "d")]) Strict = (x', Err e) /\ x' <> x.
Proof.
  exists (FieldInfo "F" None (BitRange 3 1 BRT_BitRange) None None None None [] None). eexists _, _.
  split; [vm_compute; reflexivity|discriminate].
Qed.
