(** C14-C18 and C52-C54: validation. *)
From Verif Require Import BaseFacts Types Names Validate SpecArray SpecValidate NameProofs ValidateProofs.

(** C14: register properties are accepted exactly when [props_ok] holds. *)
Theorem C14_reset_value : forall l p, rp_validate l p = Ok tt <-> props_ok l p.
Proof. exact rp_validate_ok. Qed.
Print Assumptions C14_reset_value.
Definition sample_props (s v k : N) : reg_props :=
  {| rp_size := Some s; rp_access := None; rp_protection := None; rp_reset_value := Some v; rp_reset_mask := Some k |}.
Example C14_cases : rp_validate Strict (sample_props 8 0x80 0xFF) = Ok tt /\
  rp_validate Weak (sample_props 8 0x180 0xFFF) = Err (EValueTooLarge 0x180 8) /\
  rp_validate Strict (sample_props 8 0x80 0x1FF) = Err (EMaskTooLarge 0x1FF 8) /\
  rp_validate Strict (sample_props 8 0x80 0x01) = Err (EMaskConflict 0x80 0x01) /\
  rp_validate Weak (sample_props 8 0x80 0x01) = Ok tt.
Proof. repeat split. Qed.

(** C15: enumerated values. *)
Theorem C15_value : forall l e, ev_validate l e = Ok tt <-> value_ok l e.
Proof. exact ev_validate_ok. Qed.
Print Assumptions C15_value.
Theorem C15_values : forall l e, evs_validate l e = Ok tt <-> values_ok l e.
Proof. exact evs_validate_ok. Qed.
Print Assumptions C15_values.
Definition sample_value (n : string) (v : option N) (d : option bool) : enumerated_value :=
  {| ev_name := n; ev_description := None; ev_value := v; ev_is_default := d |}.
Example C15_cases : ev_validate Strict (sample_value "ON" (Some 1) None) = Ok tt /\
  ev_validate Weak (sample_value "ON" None (Some false)) = Err EEvAbsentValue /\
  ev_validate Strict (sample_value "ON" (Some 1) (Some true)) = Err (EEvValueAndDefault (Some 1)) /\
  ev_validate Weak (sample_value "ON" (Some 1) (Some true)) = Ok tt.
Proof. repeat split. Qed.

(** C16: fields. *)
Theorem C16_field : forall l f, field_validate l f = Ok tt <-> field_ok l f.
Proof. exact field_validate_ok. Qed.
Print Assumptions C16_field.
Definition valid_field (w : N) (wc : option write_constraint) : field_info :=
  {| f_name := "F[%s]"; f_description := None; f_bit_range := {| br_offset := 3; br_width := w; br_type := BRT_BitRange |};
     f_access := None; f_mwv := None; f_write_constraint := wc; f_read_action := None;
     f_enumerated_values := [{| evs_name := None; evs_usage := Some URead; evs_derived_from := None;
                                evs_values := [sample_value "A" (Some 2) None] |};
                             {| evs_name := None; evs_usage := Some UWrite; evs_derived_from := None;
                                evs_values := [sample_value "B" (Some 3) None] |}];
     f_derived_from := None |}.
Example C16_cases : field_validate Strict (valid_field 2 (Some (WcRange 1 3))) = Ok tt /\
  field_validate Weak (valid_field 1 None) = Err (EEvOutOfRange 2 0 2) /\
  field_validate Weak (valid_field 2 (Some (WcRange 3 1))) = Err (EWcReversedRange 3 1) /\
  field_validate Weak (valid_field 0 None) = Err EZeroWidth.
Proof. repeat split. Qed.

(** C17: a stricter level accepts less, for every element and every whole tree. *)
Theorem C17_element : forall e, element_ok Disabled e /\ (element_ok Strict e -> element_ok Weak e).
Proof. intros e. exact (conj (element_disabled e) (element_weaker e)). Qed.
Print Assumptions C17_element.
Theorem C17_device : forall d, device_validate_all Disabled d = Ok tt /\
  (device_validate_all Strict d = Ok tt -> device_validate_all Weak d = Ok tt).
Proof.
  intros d. rewrite !device_validate_all_ok. split; intros; auto using element_disabled, element_weaker.
Qed.
Print Assumptions C17_device.
Theorem C17_peripheral : forall p, peripheral_validate_all Disabled p = Ok tt /\
  (peripheral_validate_all Strict p = Ok tt -> peripheral_validate_all Weak p = Ok tt).
Proof.
  intros p. unfold peripheral_validate_all. rewrite !ma_validate_all_ok, !peripheral_info_validate_all_ok.
  split; intros; auto using element_disabled, element_weaker.
Qed.
Print Assumptions C17_peripheral.
Theorem C17_register_cluster : forall rc, rc_validate_all Disabled rc = Ok tt /\
  (rc_validate_all Strict rc = Ok tt -> rc_validate_all Weak rc = Ok tt).
Proof. intros rc. rewrite !rc_validate_all_ok. split; intros; auto using element_disabled, element_weaker. Qed.
Print Assumptions C17_register_cluster.
Theorem C17_field : forall f, field_validate_all Disabled f = Ok tt /\
  (field_validate_all Strict f = Ok tt -> field_validate_all Weak f = Ok tt).
Proof.
  intros f. unfold field_validate_all. rewrite !ma_validate_all_ok, !field_info_validate_all_ok.
  split; intros; auto using element_disabled, element_weaker.
Qed.
Print Assumptions C17_field.

(** C18: name checks. *)
Theorem C18_name : forall n tag,
  (check_name n tag = Ok tt <-> plain_name n) /\
  (check_name n tag = Err (EName n tag) <-> ~ plain_name n).
Proof.
  intros n tag. split; [exact (check_name_ok n tag tt)|]. rewrite check_name_err. tauto.
Qed.
Print Assumptions C18_name.
Theorem C18_arrayable : forall n tag,
  (check_dimable_name n tag = Ok tt <-> arrayable_name n) /\
  (check_dimable_name n tag = Err (EName n tag) <-> ~ arrayable_name n).
Proof.
  intros n tag. split; [exact (check_dimable_ok n tag tt)|]. rewrite check_dimable_err. tauto.
Qed.
Print Assumptions C18_arrayable.
Theorem C18_derived : forall n tag, check_derived_name n tag = Ok tt <-> derived_name n.
Proof. intros n tag. exact (check_derived_ok n tag tt). Qed.
Print Assumptions C18_derived.
Example C18_cases : check_dimable_name "GPIO%s_X" "name" = Ok tt /\ check_dimable_name "R[%s]" "name" = Ok tt /\
  check_dimable_name "R[%s]x" "name" <> Ok tt /\ check_dimable_name "1R" "name" <> Ok tt /\
  check_name "1R" "name" = Ok tt /\ check_derived_name "P.C%s.R" "derivedFrom" = Ok tt /\
  check_derived_name "P..R" "derivedFrom" <> Ok tt.
Proof. repeat split; discriminate. Qed.

(** C52: registers, clusters, peripherals and the device. *)
Theorem C52_structural : forall l r c p d,
  (register_validate l r = Ok tt <-> register_ok l r) /\
  (cluster_validate l c = Ok tt <-> cluster_ok l c) /\
  (peripheral_validate l p = Ok tt <-> peripheral_ok l p) /\
  (device_validate l d = Ok tt <-> device_ok l d).
Proof.
  intros l r c p d.
  exact (conj (register_validate_ok l r) (conj (cluster_validate_ok l c)
         (conj (peripheral_validate_ok l p) (device_validate_ok l d)))).
Qed.
Print Assumptions C52_structural.

(** C53: whole-tree validation accepts exactly when every element of the tree, at any
    depth, is acceptable on its own. *)
Theorem C53_device_tree : forall l d,
  device_validate_all l d = Ok tt <-> forall x, in_device d x -> element_ok l x.
Proof. exact device_validate_all_ok. Qed.
Print Assumptions C53_device_tree.
Theorem C53_register_cluster_tree : forall l rc,
  rc_validate_all l rc = Ok tt <-> forall x, in_rc rc x -> element_ok l x.
Proof. exact rc_validate_all_ok. Qed.
Print Assumptions C53_register_cluster_tree.
Definition deep_register (name : string) : register_info :=
  {| r_name := name; r_display_name := None; r_description := None; r_alternate_group := None;
     r_alternate_register := None; r_address_offset := 4; r_properties := sample_props 8 1 255;
     r_datatype := None; r_mwv := None; r_write_constraint := None; r_read_action := None;
     r_fields := Some [Single (valid_field 2 None)]; r_derived_from := None |}.
Definition wrap (name : string) (rcs : list register_cluster) : register_cluster :=
  RCCluster (Single {| c_name := name; c_description := None; c_alternate_cluster := None; c_header_struct_name := None;
     c_address_offset := 0; c_default_properties := sample_props 8 1 255; c_children := rcs; c_derived_from := None |}).
Example C53_case : rc_validate_all Strict (wrap "A" [wrap "B" [RCRegister (Single (deep_register "R%s"))]]) = Ok tt /\
  rc_validate_all Strict (wrap "A" [wrap "B" [RCRegister (Single (deep_register "R-"))]]) = Err (EName "R-" "name").
Proof. split; vm_compute; reflexivity. Qed.

(** C54: validation answers Ok or an error, it never panics. *)
Theorem C54_no_panic : forall l d p, device_validate_all l d <> Panic p.
Proof. exact np_device_all. Qed.
Print Assumptions C54_no_panic.
