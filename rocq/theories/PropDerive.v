(** C19-C21: derive_from. *)
From Verif Require Import Base Types Derive SpecDerive DeriveProofs.

(** C19: the result of derive_from is exactly the element that inherits. *)
Theorem C19_properties : forall x y, props_inherit x y (rp_derive x y).
Proof. exact rp_derive_inherits. Qed.
Print Assumptions C19_properties.
Theorem C19_values : forall x y z, evs_derive x y = z <-> values_inherit x y z.
Proof. exact values_inherit_iff. Qed.
Print Assumptions C19_values.
Theorem C19_field : forall x y z, field_derive x y = z <-> field_inherits x y z.
Proof. exact field_inherits_iff. Qed.
Print Assumptions C19_field.
Theorem C19_register : forall x y z, register_derive x y = z <-> register_inherits x y z.
Proof. exact register_inherits_iff. Qed.
Print Assumptions C19_register.
Theorem C19_cluster : forall x y z, cluster_derive x y = z <-> cluster_inherits x y z.
Proof. exact cluster_inherits_iff. Qed.
Print Assumptions C19_cluster.
Theorem C19_peripheral : forall x y z, peripheral_derive x y = z <-> peripheral_inherits x y z.
Proof. exact peripheral_inherits_iff. Qed.
Print Assumptions C19_peripheral.

Definition der_field (n : string) (a : option access) : field_info :=
  {| f_name := n; f_description := None;
     f_bit_range := {| br_offset := 3; br_width := 2; br_type := BRT_BitRange |};
     f_access := a; f_mwv := Some OneToSet; f_write_constraint := None; f_read_action := None;
     f_enumerated_values := []; f_derived_from := None |}.
Definition der_register (n : string) (off : N) (a : option access) (fs : option (list field)) : register_info :=
  {| r_name := n; r_display_name := None; r_description := None; r_alternate_group := None;
     r_alternate_register := None; r_address_offset := off;
     r_properties := {| rp_size := None; rp_access := a; rp_protection := None;
                        rp_reset_value := Some 7; rp_reset_mask := None |};
     r_datatype := None; r_mwv := None; r_write_constraint := None; r_read_action := None;
     r_fields := fs; r_derived_from := Some "B" |}.
Example C19_case :
  register_derive (der_register "A" 4 (Some ReadOnly) None)
                  (der_register "B" 8 (Some WriteOnly) (Some [Single (der_field "F" None)])) =
  der_register "A" 4 (Some ReadOnly) (Some [Single (der_field "F" None)]).
Proof. reflexivity. Qed.

(** C20: for every info type derivation is stable under repetition and
    self-derivation and chains associate. *)
Theorem C20_infos : algebra rp_derive /\ algebra evs_derive /\ algebra field_derive /\
  algebra register_derive /\ algebra cluster_derive /\ algebra peripheral_derive.
Proof.
  exact (conj rp_algebra (conj evs_algebra (conj field_algebra (conj register_algebra
          (conj cluster_algebra peripheral_algebra))))).
Qed.
Print Assumptions C20_infos.
(** The same for elements that may be arrays: repetition and self-derivation ... *)
Theorem C20_elements : (repeat_stable field_ma_derive /\ self_stable field_ma_derive) /\
  (repeat_stable register_ma_derive /\ self_stable register_ma_derive) /\
  (repeat_stable cluster_ma_derive /\ self_stable cluster_ma_derive) /\
  (repeat_stable peripheral_ma_derive /\ self_stable peripheral_ma_derive).
Proof.
  assert (N1 : forall x y, f_name (field_derive x y) = f_name x) by reflexivity.
  assert (N2 : forall x y, r_name (register_derive x y) = r_name x) by reflexivity.
  assert (N3 : forall x y : cluster_info, c_name (cluster_derive x y) = c_name x) by reflexivity.
  assert (N4 : forall x y, p_name (peripheral_derive x y) = p_name x) by reflexivity.
  repeat apply conj; [exact (ma_rep _ _ N1 field_algebra) | exact (ma_self _ _ field_algebra)
    | exact (ma_rep _ _ N2 register_algebra) | exact (ma_self _ _ register_algebra)
    | exact (ma_rep _ _ N3 cluster_algebra) | exact (ma_self _ _ cluster_algebra)
    | exact (ma_rep _ _ N4 peripheral_algebra) | exact (ma_self _ _ peripheral_algebra)].
Qed.
Print Assumptions C20_elements.
(** ... and chains associate except in exactly one configuration: a single element
    with a placeholder, derived from a single one without, derived from an array. *)
Definition broken_chain {A} (name : A -> string) (x y z : maybe_array A) : Prop :=
  dims x = None /\ occurs "%s" (name (info x)) /\ dims y = None /\
  ~ occurs "%s" (name (info y)) /\ dims z <> None.
Theorem C20_chain :
  (forall x y z, field_ma_derive (field_ma_derive x y) z = field_ma_derive x (field_ma_derive y z)
     <-> ~ broken_chain f_name x y z) /\
  (forall x y z, register_ma_derive (register_ma_derive x y) z = register_ma_derive x (register_ma_derive y z)
     <-> ~ broken_chain r_name x y z) /\
  (forall x y z : cluster, cluster_ma_derive (cluster_ma_derive x y) z = cluster_ma_derive x (cluster_ma_derive y z)
     <-> ~ broken_chain c_name x y z) /\
  (forall x y z, peripheral_ma_derive (peripheral_ma_derive x y) z = peripheral_ma_derive x (peripheral_ma_derive y z)
     <-> ~ broken_chain p_name x y z).
Proof.
  repeat apply conj; intros x y z;
    [ exact (ma_chain f_name field_derive (fun _ _ => eq_refl) field_algebra x y z)
    | exact (ma_chain r_name register_derive (fun _ _ => eq_refl) register_algebra x y z)
    | exact (ma_chain c_name cluster_derive (fun _ _ => eq_refl) cluster_algebra x y z)
    | exact (ma_chain p_name peripheral_derive (fun _ _ => eq_refl) peripheral_algebra x y z)].
Qed.
Print Assumptions C20_chain.
Definition two : dim_element :=
  {| de_dim := 2; de_increment := 4; de_index := None; de_name := Some "D"; de_array_index := None |}.
(** The property as stated for all elements is false. *)
Theorem C20_chain_refuted : exists x y z : field,
  field_ma_derive (field_ma_derive x y) z <> field_ma_derive x (field_ma_derive y z).
Proof.
  exists (Single (der_field "F%s" None)), (Single (der_field "G" None)), (Array (der_field "H%s" None) two).
  vm_compute. discriminate.
Qed.
Print Assumptions C20_chain_refuted.
Example C20_good_chain : ~ broken_chain f_name (Single (der_field "F%s" None))
  (Single (der_field "G%s" None)) (Array (der_field "H%s" None) two).
Proof. intros (_ & _ & _ & H & _). apply H. exists "G", "". reflexivity. Qed.

(** C21: the dimensions of the result. *)
Theorem C21_single_from_array :
  (forall x y, array_shape f_name x y (field_ma_derive x y)) /\
  (forall x y, array_shape r_name x y (register_ma_derive x y)) /\
  (forall x y : cluster, array_shape c_name x y (cluster_ma_derive x y)) /\
  (forall x y, array_shape p_name x y (peripheral_ma_derive x y)).
Proof.
  repeat apply conj; intros x y;
    [exact (ma_shape f_name field_derive x y) | exact (ma_shape r_name register_derive x y)
    | exact (ma_shape c_name cluster_derive x y) | exact (ma_shape p_name peripheral_derive x y)].
Qed.
Print Assumptions C21_single_from_array.
(** Whatever the shapes, the info is the derived info. *)
Theorem C21_info :
  (forall x y, info (field_ma_derive x y) = field_derive (info x) (info y)) /\
  (forall x y, info (register_ma_derive x y) = register_derive (info x) (info y)) /\
  (forall x y : cluster, info (cluster_ma_derive x y) = cluster_derive (info x) (info y)) /\
  (forall x y, info (peripheral_ma_derive x y) = peripheral_derive (info x) (info y)).
Proof.
  repeat apply conj; intros x y;
    [exact (ma_info f_name field_derive x y) | exact (ma_info r_name register_derive x y)
    | exact (ma_info c_name cluster_derive x y) | exact (ma_info p_name peripheral_derive x y)].
Qed.
Print Assumptions C21_info.
Example C21_case :
  dims (field_ma_derive (Single (der_field "F%s" None)) (Array (der_field "H%s" None) two)) =
    Some {| de_dim := 2; de_increment := 4; de_index := None; de_name := None; de_array_index := None |} /\
  dims (field_ma_derive (Single (der_field "F" None)) (Array (der_field "H%s" None) two)) = None.
Proof. split; reflexivity. Qed.
