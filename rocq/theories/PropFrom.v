(** C83: changing a copy of an element: its builder, some calls, and build. *)
From Verif Require Import Base Types Validate Builders Setters SpecValidate SpecBuild SpecCalls SpecFrom ValidateProofs CallProofs.

(** The builder of an element is the one that has been given all its attributes. *)
Theorem C83_copy :
  (forall x cs, chain value_set (ev_to_builder x) cs = chain value_set value_new (value_given x ++ cs)) /\
  (forall x cs, chain values_set (evs_to_builder x) cs = chain values_set values_new (values_given x ++ cs)) /\
  (forall x cs, chain dim_set (de_to_builder x) cs = chain dim_set dim_new (dim_given x ++ cs)) /\
  (forall x cs, chain field_set (field_to_builder x) cs = chain field_set field_new (field_given x ++ cs)) /\
  (forall x cs, chain register_set (register_to_builder x) cs = chain register_set register_new (register_given x ++ cs)) /\
  (forall x cs, chain cluster_set (cluster_to_builder x) cs = chain cluster_set cluster_new (cluster_given x ++ cs)) /\
  (forall x cs, chain block_set (ab_to_builder x) cs = chain block_set block_new (block_given x ++ cs)) /\
  (forall x cs, chain interrupt_set (it_to_builder x) cs = chain interrupt_set interrupt_new (interrupt_given x ++ cs)) /\
  (forall x cs, chain peripheral_set (peripheral_to_builder x) cs = chain peripheral_set peripheral_new (peripheral_given x ++ cs)) /\
  (forall x cs, chain cpu_set (cpu_to_builder x) cs = chain cpu_set cpu_new (cpu_given x ++ cs)) /\
  (forall x cs, chain device_set (device_to_builder x) cs = chain device_set device_new (device_given x ++ cs)).
Proof.
  repeat apply conj; intros x cs; rewrite chain_app; reflexivity.
Qed.
Print Assumptions C83_copy.
(** So what is built has what the calls give last, and otherwise what the element had. *)
Theorem C83_changed : forall l,
  (forall x cs y, ev_build l (chain value_set (ev_to_builder x) cs) = Ok y <-> value_built (value_given x ++ cs) y /\ value_ok l y) /\
  (forall x cs y, evs_build l (chain values_set (evs_to_builder x) cs) = Ok y <-> values_built (values_given x ++ cs) y /\ values_ok l y) /\
  (forall x cs y, de_build l (chain dim_set (de_to_builder x) cs) = Ok y <-> dim_built (dim_given x ++ cs) y) /\
  (forall x cs y, field_build l (chain field_set (field_to_builder x) cs) = Ok y <-> field_built (field_given x ++ cs) y /\ field_ok l y) /\
  (forall x cs y, register_build l (chain register_set (register_to_builder x) cs) = Ok y <-> register_built (register_given x ++ cs) y /\ props_ok l (r_properties y) /\ register_ok l y) /\
  (forall x cs y, cluster_build l (chain cluster_set (cluster_to_builder x) cs) = Ok y <-> cluster_built (cluster_given x ++ cs) y /\ props_ok l (c_default_properties y) /\ cluster_ok l y) /\
  (forall x cs y, ab_build l (chain block_set (ab_to_builder x) cs) = Ok y <-> block_built (block_given x ++ cs) y) /\
  (forall x cs y, it_build l (chain interrupt_set (it_to_builder x) cs) = Ok y <-> interrupt_built (interrupt_given x ++ cs) y) /\
  (forall x cs y, peripheral_build l (chain peripheral_set (peripheral_to_builder x) cs) = Ok y <-> peripheral_built (peripheral_given x ++ cs) y /\ props_ok l (p_default_properties y) /\ peripheral_ok l y) /\
  (forall x cs y, cpu_build l (chain cpu_set (cpu_to_builder x) cs) = Ok y <-> cpu_built (cpu_given x ++ cs) y) /\
  (forall x cs y, device_build l (chain device_set (device_to_builder x) cs) = Ok y <-> device_built l (device_given x ++ cs) y /\ props_ok l (d_default_properties y) /\ device_ok l y).
Proof.
  intros l. destruct C83_copy as (E0 & E1 & E2 & E3 & E4 & E5 & E6 & E7 & E8 & E9 & E10).
  repeat apply conj; intros x cs y.
  - rewrite E0. apply value_chain.
  - rewrite E1. apply values_chain.
  - rewrite E2. apply dim_chain.
  - rewrite E3. apply field_chain.
  - rewrite E4. apply register_chain.
  - rewrite E5. apply cluster_chain.
  - rewrite E6. apply block_chain.
  - rewrite E7. apply interrupt_chain.
  - rewrite E8. apply peripheral_chain.
  - rewrite E9. apply cpu_chain.
  - rewrite E10. apply device_chain.
Qed.
Print Assumptions C83_changed.

Example C83_changed_example :
  field_build Strict (chain field_set (field_to_builder (FieldInfo "F" (Some "text") (BitRange 4 2 BRT_MsbLsb) None None None None [] None))
    [with_field_bit_offset 7; with_field_name "G"; with_field_bit_offset 8]) =
  Ok (FieldInfo "G" (Some "text") (BitRange 8 2 BRT_MsbLsb) None None None None [] None).
Proof. vm_compute. reflexivity. Qed.
