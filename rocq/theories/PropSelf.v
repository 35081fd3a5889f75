(** C23: modifying an element with its own builder. *)
From Verif Require Import Base Types Validate Builders SpecValidate SpecBuild ValidateProofs SelfProofs.
Open Scope string_scope.

(** A valid element that is not derived and has no empty texts or lists is left as it is. *)
Theorem C23_self : forall l,
  (forall x, props_ok l x -> rp_modify x x l = (x, Ok tt)) /\
  (forall x, value_ok l x -> ev_description x <> Some "" -> ev_modify x (ev_to_builder x) l = (x, Ok tt)) /\
  (forall x, values_ok l x -> evs_derived_from x = None -> evs_name x <> Some "" -> evs_modify x (evs_to_builder x) l = (x, Ok tt)) /\
  (forall x, de_name x <> Some "" -> de_index x <> Some [] -> de_modify x (de_to_builder x) l = (x, Ok tt)) /\
  (forall x, field_ok l x -> f_derived_from x = None -> f_description x <> Some "" -> field_modify x (field_to_builder x) l = (x, Ok tt)) /\
  (forall x, props_ok l (r_properties x) -> register_ok l x -> r_derived_from x = None ->
    r_display_name x <> Some "" -> r_description x <> Some "" -> r_alternate_group x <> Some "" ->
    r_alternate_register x <> Some "" -> r_fields x <> Some [] -> register_modify x (register_to_builder x) l = (x, Ok tt)) /\
  (forall x, props_ok l (c_default_properties x) -> cluster_ok l x -> c_derived_from x = None ->
    c_description x <> Some "" -> c_alternate_cluster x <> Some "" -> c_header_struct_name x <> Some "" ->
    cluster_modify x (cluster_to_builder x) l = (x, Ok tt)) /\
  (forall x, ab_modify x (ab_to_builder x) l = (x, Ok tt)) /\
  (forall x, it_modify x (it_to_builder x) l = (x, Ok tt)) /\
  (forall x, props_ok l (p_default_properties x) -> peripheral_ok l x -> p_derived_from x = None ->
    tidy_peripheral x = x -> p_registers x <> Some [] -> peripheral_modify x (peripheral_to_builder x) l = (x, Ok tt)) /\
  (forall x, cpu_modify x (cpu_to_builder x) l = (x, Ok tt)) /\
  (forall x, props_ok l (d_default_properties x) -> device_ok l x ->
    d_vendor x <> Some "" -> d_vendor_id x <> Some "" -> d_series x <> Some "" -> d_license_text x <> Some "" ->
    d_header_system_filename x <> Some "" -> d_header_definitions_prefix x <> Some "" ->
    device_modify x (device_to_builder x) l = (x, Ok tt)).
Proof.
  intros l. exact (conj (props_self l) (conj (value_self l) (conj (values_self l) (conj (dim_self l) (conj (field_self l) (conj (register_self l)
    (conj (cluster_self l) (conj (block_self l) (conj (interrupt_self l) (conj (peripheral_self l) (conj (cpu_self l) (device_self l)))))))))))).
Qed.
Print Assumptions C23_self.

Definition heir : register_info :=
  RegisterInfo "R" None (Some "own text") None None 4 (RegProps (Some 16) None None (Some 3) None) None None None None
    (Some [Single (FieldInfo "F" None (BitRange 0 1 BRT_OffsetWidth) None None None None [] None)]) (Some "Q").
(** A derived one is not: a valid derived register loses its size, its reset value and its fields to its own builder. *)
Theorem C23_self_refuted : forall l, exists x x', props_ok l (r_properties x) /\ register_ok l x /\
  register_modify x (register_to_builder x) l = (x', Ok tt) /\ rp_size (r_properties x) <> None /\ rp_size (r_properties x') = None /\
  r_fields x <> None /\ r_fields x' = None.
Proof.
  intros l. exists heir. eexists. rewrite <- rp_validate_ok, <- register_validate_ok.
  repeat apply conj; try (destruct l; vm_compute; reflexivity); discriminate.
Qed.
Print Assumptions C23_self_refuted.

Definition plain : register_info :=
  RegisterInfo "R" None (Some "own text") None None 4 (RegProps (Some 16) None None (Some 3) None) None None None None
    (Some [Single (FieldInfo "F" None (BitRange 0 1 BRT_OffsetWidth) None None None None [] None)]) None.
Example C23_self_example : props_ok Strict (r_properties plain) /\ register_ok Strict plain /\
  register_modify plain (register_to_builder plain) Strict = (plain, Ok tt).
Proof. rewrite <- rp_validate_ok, <- register_validate_ok. repeat apply conj; vm_compute; reflexivity. Qed.
