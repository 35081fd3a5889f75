(** Concrete inputs for the theorems about numbers, bit ranges, arrays, validation, derivation and builders that
    have no example beside them.  [X_case] meets the hypotheses of theorem [X] (or lies on the interesting side of
    its equivalence) and shows the value the code gives there. *)
From Coq Require Import String NArith List Lia.
From Verif Require Import BaseFacts Types Names Validate Derive Arrays Builders Xml Encode Parse Config Expand.
From Verif Require Import SpecNum SpecArray SpecValidate SpecDerive SpecBuild SpecXml.
From Verif Require Import PropNumbers PropBits PropArrays PropValidate PropDerive PropBuild PropExpand PropEnds.
From Verif Require Import InstanceProofs BuilderProofs.
Import ListNotations.
Local Open Scope N_scope.
Local Open Scope string_scope.

(** Bit ranges *)

Example C04_offset_width_case :
  bind (bit_range_encode Debug config_default {| br_offset := 4294967295; br_width := 0; br_type := BRT_OffsetWidth |})
    (fun ch => bit_range_parse Debug (bits_elem (new_node "name" "F" :: ch))) =
  Ok {| br_offset := 4294967295; br_width := 0; br_type := BRT_OffsetWidth |}.
Proof. vm_compute; reflexivity. Qed.

Example C04_release_edge_case :
  bind (bit_range_encode Release config_default {| br_offset := 4294967288; br_width := 8; br_type := BRT_BitRange |})
    (fun ch => bit_range_parse Debug (bits_elem (new_node "name" "F" :: ch))) =
  Ok {| br_offset := 4294967288; br_width := 8; br_type := BRT_BitRange |}.
Proof. vm_compute; reflexivity. Qed.

Example C05_reversed_case :
  bit_range_parse Release (bits_elem [new_node "msb" "1"; new_node "lsb" "5"]) = Err EInvalidBitRangeSize.
Proof. vm_compute; reflexivity. Qed.

Example C05_size_case :
  bit_range_parse Release (bits_elem [new_node "lsb" "3"; new_node "bitWidth" " 0x10"; new_node "bitOffset" "2"]) =
  Ok {| br_offset := 2; br_width := 16; br_type := BRT_OffsetWidth |}.
Proof. vm_compute; reflexivity. Qed.

Example C05_full_range_case :
  bit_range_parse Debug (bits_elem [new_node "bitRange" "[4294967295:0]"]) = Panic Overflow /\
  bit_range_parse Release (bits_elem [new_node "bitRange" "[4294967295:0]"]) =
  Ok {| br_offset := 0; br_width := 0; br_type := BRT_BitRange |}.
Proof. split; vm_compute; reflexivity. Qed.

(** Indexes *)

Example C07_list_text_case : parse_indexes (join "," ["A"; ""; "x%s"]) = Some ["A"; ""; "x%s"].
Proof. vm_compute; reflexivity. Qed.

Example C07_range_text_case :
  indexes_as_range Debug (dim_with 3 4 (Some ["9"; "10"; "11"])) = Ok (Some (9, 11)) /\
  parse_indexes (to_string 9 ++ "-" ++ to_string 11) = Some ["9"; "10"; "11"].
Proof. split; vm_compute; reflexivity. Qed.

Example C08_only_panic_case :
  indexes_as_range Debug (dim_with 3 4 (Some ["7"; "4294967295"; "0"])) = Panic Overflow /\
  indexes_as_range Debug (dim_with 3 4 (Some ["7"; "4294967295"; "1"])) = Ok None.
Proof. split; vm_compute; reflexivity. Qed.

Example C09_descriptions_case :
  descriptions (dim_with 2 4 (Some ["A"; "B"])) (Some "Port [%s] or %s") = Ok [Some "Port A or A"; Some "Port B or B"] /\
  descriptions (dim_with 2 4 None) None = Ok [None; None].
Proof. split; vm_compute; reflexivity. Qed.

Example C09_one_pass_case : plain_template "A" "x%s[%s]" /\ filled "A" "x%s[%s]" "xAA" /\ substituted "A" "x%s[%s]" "xAA".
Proof.
  assert (P : plain_template "A" "x%s[%s]").
  { split; [cbn; intros [E|[]]; discriminate E|]. intros a b E.
    do 7 (destruct a as [|? a]; [discriminate E|cbn in E; injection E as ? E]). destruct a; discriminate E. }
  assert (F : filled "A" "x%s[%s]" "xAA") by exact (subst_filled "A" "x%s[%s]").
  split; [exact P|]. split; [exact F|]. now apply C09_one_pass.
Qed.

Example C09_names_total_case :
  names (dim_with 3 4 (Some ["A"; "B"])) "R%s" = Panic OutOfBounds /\
  names (dim_with 2 4 (Some ["A"; "B"; "C"])) "R%s" = Ok ["RA"; "RB"].
Proof. split; vm_compute; reflexivity. Qed.

(** Expansion of single elements *)

Example C10_register_expand_case :
  bind (register_expand Debug
      (RegisterInfo "R%s" (Some "Reg [%s]") (Some "the %s") None None 0x10 rp_default None None None None None None)
      (dim_with 2 4 (Some ["A"; "B"])))
    (fun l => Ok (map (fun r => (r_name r, r_display_name r, r_description r, r_address_offset r)) l)) =
  Ok [("RA", Some "Reg A", Some "the A", 0x10); ("RB", Some "Reg B", Some "the B", 0x14)].
Proof. vm_compute; reflexivity. Qed.

Example C10_cluster_expand_case :
  bind (cluster_expand Debug (a_cluster "C[%s]" 0x100 [RCRegister (Single (a_register "R" 0 None None))] None)
      (dim_with 2 0x20 None))
    (fun l => Ok (map (fun c : cluster_info => (c_name c, c_address_offset c, List.length (c_children c))) l)) =
  Ok [("C0", 0x100, 1%nat); ("C1", 0x120, 1%nat)].
Proof. vm_compute; reflexivity. Qed.

Example C10_peripheral_expand_case :
  bind (peripheral_expand Debug (a_peripheral "UART%s" 0xFFFFFFFF None None) (dim_with 2 0x400 (Some ["1"; "5"])))
    (fun l => Ok (map (fun p => (p_name p, p_base_address p)) l)) =
  Ok [("UART1", 0xFFFFFFFF); ("UART5", 0x1000003FF)].
Proof. vm_compute; reflexivity. Qed.

Example C10_succeeds_or_panics_case :
  register_expand Debug (a_register "R%s" 4294967290 None None) (dim_with 2 4 None) <> Panic Overflow /\
  register_expand Debug (a_register "R%s" 4294967290 None None) (dim_with 3 4 None) = Panic Overflow /\
  peripheral_expand Debug (a_peripheral "P%s" 4294967290 None None) (dim_with 3 4 None) <> Panic Overflow.
Proof. repeat split; try (vm_compute; reflexivity); vm_compute; discriminate. Qed.

(** Masks *)

Example C12_panics_outside_case :
  field_bitmask Debug (Single (sample_field "F" 60 8)) = Ok 0xF000000000000000 /\
  field_bitmask Debug (Single (sample_field "F" 64 1)) = Panic Overflow /\
  field_bitmask Debug (Single (sample_field "F" 0 0)) = Panic Overflow.
Proof. repeat split; vm_compute; reflexivity. Qed.

Definition masked (fs : option (list field)) : register_info := a_register "R" 0 fs None.

Example C13_register_bitmask_case :
  Forall maskable (r_fields_iter (masked (Some [Single (sample_field "F" 0 4); Single (sample_field "G" 2 4);
                                                Array (sample_field "H%s" 16 1) (dim_with 3 4 None)]))) /\
  register_bitmask Debug (masked (Some [Single (sample_field "F" 0 4); Single (sample_field "G" 2 4);
                                        Array (sample_field "H%s" 16 1) (dim_with 3 4 None)])) = Ok 0x111003F.
Proof.
  split; [|vm_compute; reflexivity].
  repeat constructor; cbn; try discriminate. intros i Hi. cbn in *. lia.
Qed.

Example C13_panics_outside_case :
  register_bitmask Debug (masked (Some [Single (sample_field "F" 0 4); Single (sample_field "G" 64 4)])) = Panic Overflow.
Proof. vm_compute; reflexivity. Qed.

Example C13_no_fields_case : register_bitmask Debug (masked None) = Ok 0 /\ register_bitmask Release (masked (Some [])) = Ok 0.
Proof. split; vm_compute; reflexivity. Qed.

(** Validation *)

Example C15_values_case :
  evs_validate Strict (EnumeratedValues (Some "E") None None [sample_value "A" (Some 1) None; sample_value "B" None (Some true)]) = Ok tt /\
  evs_validate Weak (EnumeratedValues None None None []) = Err EEvsEmpty /\
  evs_validate Strict (EnumeratedValues (Some "E 1") None (Some "F") []) = Err (EName "E 1" "name").
Proof. repeat split; vm_compute; reflexivity. Qed.

Definition lone (r : register_info) : device := a_device [Single (a_peripheral "P" 0 (Some [wrap "A" [RCRegister (Single r)]]) None)].
Definition weak_register : register_info :=
  {| r_name := "R"; r_display_name := None; r_description := None; r_alternate_group := None;
     r_alternate_register := None; r_address_offset := 4; r_properties := sample_props 8 0x80 0x01;
     r_datatype := None; r_mwv := None; r_write_constraint := None; r_read_action := None;
     r_fields := None; r_derived_from := None |}.

(** The checks of one level are really weaker than those of the next. *)
Example C17_device_case :
  device_validate_all Strict (lone (deep_register "R%s")) = Ok tt /\
  device_validate_all Weak (lone weak_register) = Ok tt /\
  device_validate_all Strict (lone weak_register) <> Ok tt /\
  device_validate_all Weak (a_device []) <> Ok tt.
Proof. repeat split; try (vm_compute; reflexivity); vm_compute; discriminate. Qed.

Example C17_peripheral_case :
  peripheral_validate_all Strict (Single (a_peripheral "P" 0 (Some [wrap "A" [RCRegister (Single (deep_register "R%s"))]]) None)) = Ok tt /\
  peripheral_validate_all Strict (Single (a_peripheral "P" 0 (Some [wrap "A" [RCRegister (Single weak_register)]]) None)) <> Ok tt.
Proof. repeat split; try (vm_compute; reflexivity); vm_compute; discriminate. Qed.

Example C17_register_cluster_case :
  rc_validate_all Strict (wrap "A" [RCRegister (Single (deep_register "R"))]) = Ok tt /\
  rc_validate_all Strict (RCRegister (Single weak_register)) <> Ok tt /\ rc_validate_all Weak (RCRegister (Single weak_register)) = Ok tt.
Proof. repeat split; try (vm_compute; reflexivity); vm_compute; discriminate. Qed.

Definition both_field : field_info :=
  {| f_name := "F"; f_description := None; f_bit_range := {| br_offset := 3; br_width := 2; br_type := BRT_BitRange |};
     f_access := None; f_mwv := None; f_write_constraint := None; f_read_action := None;
     f_enumerated_values := [EnumeratedValues None None None [sample_value "A" (Some 1) (Some true)]]; f_derived_from := None |}.

Example C17_field_case :
  field_validate_all Strict (Single (valid_field 2 None)) = Ok tt /\ field_validate_all Weak (Single both_field) = Ok tt /\
  field_validate_all Strict (Single both_field) = Err (EEvValueAndDefault (Some 1)) /\
  field_validate_all Disabled (Single (valid_field 0 None)) = Ok tt.
Proof. repeat split; vm_compute; reflexivity. Qed.

Example C18_name_case : plain_name "1R_" /\ check_name "" "name" = Ok tt /\ check_name "A-B" "cpu" = Err (EName "A-B" "cpu").
Proof. split; [apply (proj1 (proj1 (C18_name "1R_" "name"))); vm_compute; reflexivity|split; vm_compute; reflexivity]. Qed.

Example C52_structural_case :
  register_validate Strict (deep_register "R") = Ok tt /\
  cluster_validate Strict (sample_cluster None) = Ok tt /\
  peripheral_validate Strict (a_peripheral "P" 0 (Some []) None) = Err EEmptyRegisters /\
  device_validate Strict (a_device []) = Err EEmptyDevice.
Proof. repeat split; vm_compute; reflexivity. Qed.

Example C53_device_tree_case :
  in_device (lone (deep_register "R-")) (ERegister (deep_register "R-")) /\
  device_validate_all Strict (lone (deep_register "R-")) = Err (EName "R-" "name").
Proof.
  split; [|vm_compute; reflexivity].
  eapply id_peripheral; [left; reflexivity|]. eapply ip_child; [reflexivity|left; reflexivity|].
  eapply ic_child; [left; reflexivity|]. apply ic_register. apply ir_self.
Qed.

(** Derivation *)

Example C19_properties_case :
  rp_derive (RegProps (Some 8) None None (Some 1) None) (RegProps (Some 16) (Some ReadOnly) None None (Some 15)) =
  RegProps (Some 8) (Some ReadOnly) None (Some 1) (Some 15).
Proof. vm_compute; reflexivity. Qed.

Example C19_values_case :
  evs_derive (EnumeratedValues None None (Some "E") []) (EnumeratedValues (Some "E") (Some URead) None [sample_value "A" (Some 1) None]) =
  EnumeratedValues None (Some URead) (Some "E") [sample_value "A" (Some 1) None].
Proof. vm_compute; reflexivity. Qed.

Example C19_field_case : field_derive (der_field "A" None) (der_field "B" (Some ReadOnly)) = der_field "A" (Some ReadOnly).
Proof. vm_compute; reflexivity. Qed.

Example C19_cluster_case :
  cluster_derive (a_cluster "A" 4 [] (Some "B")) (a_cluster "B" 8 [RCRegister (Single (a_register "R" 0 None None))] None) =
  a_cluster "A" 4 [RCRegister (Single (a_register "R" 0 None None))] (Some "B").
Proof. vm_compute; reflexivity. Qed.

Example C19_peripheral_case :
  peripheral_derive (a_peripheral "A" 4 None (Some "B"))
    (PeripheralInfo "B" (Some "shown") None (Some "text") None (Some "group") None None None 8 rp_default
       (Some [AddressBlock 0 64 Registers None]) [Interrupt "I" None 3] (Some [RCRegister (Single (a_register "R" 0 None None))]) None) =
  PeripheralInfo "A" None None (Some "text") None (Some "group") None None None 4 rp_default
       (Some [AddressBlock 0 64 Registers None]) [Interrupt "I" None 3] (Some [RCRegister (Single (a_register "R" 0 None None))]) (Some "B").
Proof. vm_compute; reflexivity. Qed.

Example C20_elements_case :
  field_ma_derive (field_ma_derive (Single (der_field "F%s" None)) (Array (der_field "H%s" (Some ReadOnly)) two))
    (Array (der_field "H%s" (Some ReadOnly)) two) =
  field_ma_derive (Single (der_field "F%s" None)) (Array (der_field "H%s" (Some ReadOnly)) two) /\
  field_ma_derive (Single (der_field "F%s" None)) (Array (der_field "H%s" (Some ReadOnly)) two) <> Single (der_field "F%s" None).
Proof. split; [vm_compute; reflexivity|vm_compute; discriminate]. Qed.

Example C20_chain_case :
  field_ma_derive (field_ma_derive (Single (der_field "F%s" None)) (Single (der_field "G%s" None))) (Array (der_field "H%s" None) two) =
  field_ma_derive (Single (der_field "F%s" None)) (field_ma_derive (Single (der_field "G%s" None)) (Array (der_field "H%s" None) two)).
Proof. vm_compute; reflexivity. Qed.

Example C21_info_case :
  info (field_ma_derive (Single (der_field "F%s" None)) (Array (der_field "H%s" (Some ReadOnly)) two)) = der_field "F%s" (Some ReadOnly).
Proof. vm_compute; reflexivity. Qed.

(** Builders *)

Example C22_value_case :
  ev_build Strict (ev_to_builder (EnumeratedValue "A" (Some "") (Some 1) None)) = Ok (EnumeratedValue "A" None (Some 1) None) /\
  ev_build Weak (ev_to_builder (EnumeratedValue "A" (Some "t") None None)) = Err EEvAbsentValue.
Proof. split; vm_compute; reflexivity. Qed.

Example C22_values_case :
  evs_build Strict (evs_to_builder (EnumeratedValues (Some "E") (Some URead) None [sample_value "A" (Some 1) None])) =
  Ok (EnumeratedValues (Some "E") (Some URead) None [sample_value "A" (Some 1) None]) /\
  evs_build Weak (evs_to_builder (EnumeratedValues (Some "E") None None [])) = Err EEvsEmpty.
Proof. split; vm_compute; reflexivity. Qed.

Example C22_field_case :
  field_build Strict (field_to_builder (valid_field 2 None)) = Ok (valid_field 2 None) /\
  field_build Weak (field_to_builder (valid_field 0 None)) = Err EZeroWidth.
Proof. split; vm_compute; reflexivity. Qed.

Example C22_register_case :
  register_build Strict (register_to_builder (deep_register "R%s")) = Ok (deep_register "R%s") /\
  register_build Strict (register_to_builder (deep_register "R-")) = Err (EName "R-" "name") /\
  register_build Strict (register_to_builder weak_register) = Err (EMaskConflict 0x80 0x01) /\
  register_build Weak (register_to_builder weak_register) = Ok weak_register.
Proof. repeat split; vm_compute; reflexivity. Qed.

Example C22_peripheral_case :
  peripheral_build Strict (peripheral_to_builder (a_peripheral "P" 4 (Some [RCRegister (Single (deep_register "R"))]) None)) =
  Ok (a_peripheral "P" 4 (Some [RCRegister (Single (deep_register "R"))]) None) /\
  peripheral_build Strict (peripheral_to_builder (a_peripheral "P" 4 (Some []) None)) = Err EEmptyRegisters.
Proof. split; vm_compute; reflexivity. Qed.

Example C22_device_case :
  device_build Strict (device_to_builder (lone (deep_register "R"))) = Ok (lone (deep_register "R")) /\
  device_build Weak (device_to_builder (a_device [])) = Err EEmptyDevice.
Proof. split; vm_compute; reflexivity. Qed.

Example C22_missing_device_case :
  device_build Strict no_device = Err (EUninitialized "name") /\
  device_build Strict (DeviceBuilder None None (Some "D") None None None None None None None None None rp_default (Some []) None None None) =
    Err (EUninitialized "version") /\
  bind (device_build Disabled (DeviceBuilder None None (Some "D") None None None None None None None None None rp_default (Some []) None None None))
    (fun d => Ok (d_version d, d_description d, d_address_unit_bits d, d_width d)) = Ok ("1.0", "", 8, 32).
Proof. repeat split; vm_compute; reflexivity. Qed.

Example C23_cluster_case :
  cluster_modify (a_cluster "C" 4 [RCRegister (Single (deep_register "R"))] None)
    (ClusterBuilder (Some "D") (Some "") None None (Some 8) no_props None None) Strict =
  (a_cluster "D" 8 [RCRegister (Single (deep_register "R"))] None, Ok tt).
Proof. vm_compute; reflexivity. Qed.

Example C23_peripheral_case :
  snd (peripheral_modify (a_peripheral "P" 4 None None)
    (PeripheralBuilder None None None (Some "text") None None None None None (Some 0x100000000) no_props None None None None) Weak) = Ok tt /\
  p_base_address (fst (peripheral_modify (a_peripheral "P" 4 None None)
    (PeripheralBuilder None None None (Some "text") None None None None None (Some 0x100000000) no_props None None None None) Weak)) = 0x100000000.
Proof. split; vm_compute; reflexivity. Qed.

Example C23_device_case :
  device_modify (lone (deep_register "R")) (DeviceBuilder None None None None (Some "2.0") None None None None None None None no_props (Some []) None None None) Weak =
  (Device None None "dev" None "2.0" "" None None None None 8 32 (RegProps (Some 32) None None (Some 0) None) [] "" "" "", Err EEmptyDevice).
Proof. vm_compute; reflexivity. Qed.

Example C23_identity_case :
  register_modify (deep_register "R") no_register Strict = (deep_register "R", Ok tt) /\
  device_modify (lone (deep_register "R")) no_device Strict = (lone (deep_register "R"), Ok tt).
Proof. split; vm_compute; reflexivity. Qed.

Example C24_after_range_case :
  fb_bit_range (fb_set_bit_width 5 (fb_set_bit_offset 7 (field_to_builder (valid_field 2 None)))) =
  Some {| br_offset := 7; br_width := 5; br_type := BRT_BitRange |}.
Proof. vm_compute; reflexivity. Qed.

Example C24_width_then_offset_fails_case :
  field_build Weak (fb_set_bit_offset 3 (fb_set_bit_width 2 (named "F"))) = Err (EUninitialized "bit_range").
Proof. vm_compute; reflexivity. Qed.

Example C25_emptied_case :
  evs_modify (EnumeratedValues (Some "E") (Some URead) None [sample_value "A" (Some 1) None]) (EvsBuilder None None (Some "G") None) Weak =
  (EnumeratedValues None None None [], Err EEvsEmpty).
Proof. vm_compute; reflexivity. Qed.

Example C25_never_case :
  fst (evs_modify (EnumeratedValues None None (Some "G") []) (EvsBuilder (Some "E") (Some UWrite) None None) Strict) =
  EnumeratedValues (Some "E") (Some UWrite) (Some "G") [].
Proof. vm_compute; reflexivity. Qed.

Example C51_success_valid_case :
  register_modify weak_register (change None None (Some 0x81) None) Strict =
    (fst (register_modify weak_register (change None None (Some 0x81) None) Strict), Err (EMaskConflict 0x81 0x01)) /\
  snd (register_modify weak_register (change None None (Some 0x01) None) Strict) = Ok tt.
Proof. split; vm_compute; reflexivity. Qed.
