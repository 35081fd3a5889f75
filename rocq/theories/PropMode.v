(** C84: debug and release builds. *)
From Verif Require Import Base Types Arrays Config Xml Encode Parse Expand Top Serde Show ParseAt SpecMarkup SpecMode ModeProofs.
Open Scope N_scope.

(** A file read with any configuration: the device, the error, the panic. *)
Theorem C84_parse : forall fuel document cfg text,
  same_build (parse_with_config Debug fuel document cfg text) (parse_with_config Release fuel document cfg text).
Proof. exact sb_parse. Qed.
Print Assumptions C84_parse.
(** The report of an error of the parser *)
Theorem C84_report : forall cfg pos root,
  same_build (parse_document Debug cfg pos root) (parse_document Release cfg pos root).
Proof. exact sb_parse_document. Qed.
Print Assumptions C84_report.
Theorem C84_expand : forall fuel d, same_build (expand Debug fuel d) (expand Release fuel d).
Proof. exact sb_expand. Qed.
Print Assumptions C84_expand.
Theorem C84_encode : forall conv print d cfg,
  same_build (encode_with_config Debug conv print d cfg) (encode_with_config Release conv print d cfg).
Proof. intros. unfold encode_with_config. apply sb_bind; [apply sb_device_encode|intros; apply sb_refl]. Qed.
Print Assumptions C84_encode.
Theorem C84_serde :
  (forall d, same_build (device_put Debug d) (device_put Release d)) /\
  (forall v, same_build (device_get Debug v) (device_get Release v)).
Proof. split; [exact sb_device_put|exact sb_device_get]. Qed.
Print Assumptions C84_serde.
(** Arrays, bit masks, bit ranges, index ranges *)
Theorem C84_elements :
  (forall f d, same_build (field_expand Debug f d) (field_expand Release f d)) /\
  (forall r d, same_build (register_expand Debug r d) (register_expand Release r d)) /\
  (forall c d, same_build (cluster_expand Debug c d) (cluster_expand Release c d)) /\
  (forall p d, same_build (peripheral_expand Debug p d) (peripheral_expand Release p d)) /\
  (forall f, same_build (field_bitmask Debug f) (field_bitmask Release f)) /\
  (forall r, same_build (register_bitmask Debug r) (register_bitmask Release r)) /\
  (forall d, same_build (indexes_as_range Debug d) (indexes_as_range Release d)) /\
  (forall b, same_build (br_msb Debug b) (br_msb Release b) /\ same_build (br_text Debug b) (br_text Release b)) /\
  (forall h l, same_build (br_from_msb_lsb Debug h l) (br_from_msb_lsb Release h l)) /\
  (forall s, same_build (br_from_bit_range Debug s) (br_from_bit_range Release s)).
Proof.
  repeat apply conj; auto using sb_field_expand, sb_register_expand, sb_cluster_expand, sb_peripheral_expand,
    sb_field_bitmask, sb_register_bitmask, sb_indexes, sb_br_msb, sb_br_text, sb_br_from_msb_lsb, sb_br_from_bit_range.
Qed.
Print Assumptions C84_elements.
Theorem C84_messages : forall e, same_build (show Debug e) (show Release e).
Proof. exact sb_show. Qed.
Print Assumptions C84_messages.

(** Where the debug build stops, a release build may go on with a wrong result: *)
Definition far_register : register_info :=
  {| r_name := "R%s"; r_display_name := None; r_description := None; r_alternate_group := None;
     r_alternate_register := None; r_address_offset := 0xFFFFFFF0; r_properties := RegProps None None None None None;
     r_datatype := None; r_mwv := None; r_write_constraint := None; r_read_action := None; r_fields := None;
     r_derived_from := None |}.
Definition nine_by_two : dim_element :=
  {| de_dim := 9; de_increment := 2; de_index := None; de_name := None; de_array_index := None |}.
Definition far_registers : list register_info :=
  Eval vm_compute in match register_expand Release far_register nine_by_two with Ok l => l | _ => [] end.
Theorem C84_always_refuted : exists r d l, register_expand Debug r d = Panic Overflow /\
  register_expand Release r d = Ok l /\ map r_address_offset l =
    [0xFFFFFFF0; 0xFFFFFFF2; 0xFFFFFFF4; 0xFFFFFFF6; 0xFFFFFFF8; 0xFFFFFFFA; 0xFFFFFFFC; 0xFFFFFFFE; 0].
Proof.
  exists far_register, nine_by_two, far_registers.
  repeat apply conj; vm_compute; reflexivity.
Qed.
Print Assumptions C84_always_refuted.
(** The same in a file: a field of all 4294967296 bits is read as one of no bits *)
Definition wide_file (range : string) : string :=
  ("<device><name>D</name><version>1</version><description>d</description><addressUnitBits>8</addressUnitBits><width>32</width>" ++
   "<peripherals><peripheral><name>P</name><baseAddress>0</baseAddress><registers><register><name>R</name>" ++
   "<addressOffset>0</addressOffset><fields><field><name>F</name><bitRange>" ++ range ++
   "</bitRange></field></fields></register></registers></peripheral></peripherals></device>")%string.
Definition unchecked : pconfig := {| pc_level := Disabled; pc_expand := false; pc_expand_properties := false; pc_ignore_enums := false |}.
Example C84_parse_example :
  parse_with_config Debug 0 read_text unchecked (wide_file "[4294967295:0]") = Panic Overflow /\
  (exists d, parse_with_config Release 0 read_text unchecked (wide_file "[4294967295:0]") = Ok d) /\
  (exists d, parse_with_config Debug 0 read_text unchecked (wide_file "[4294967295:1]") = Ok d /\
     parse_with_config Release 0 read_text unchecked (wide_file "[4294967295:1]") = Ok d).
Proof.
  split; [vm_compute; reflexivity|]. split.
  - destruct (parse_with_config Release 0 read_text unchecked (wide_file "[4294967295:0]")) as [d|e|p] eqn:E;
      [now exists d|exfalso; revert E; vm_compute; discriminate..].
  - destruct (C84_parse 0 read_text unchecked (wide_file "[4294967295:1]")) as [H|H].
    + exfalso. revert H. vm_compute. discriminate.
    + rewrite H. destruct (parse_with_config Debug 0 read_text unchecked (wide_file "[4294967295:1]")) as [d|e|p] eqn:E;
        [exists d; auto|exfalso; revert E; vm_compute; discriminate..].
Qed.
(** One step less and both builds agree. *)
Example C84_example :
  match register_expand Debug far_register (DimElement 8 2 None None None) with Ok l => List.length l | _ => O end = 8%nat /\
  register_expand Release far_register (DimElement 8 2 None None None) =
  register_expand Debug far_register (DimElement 8 2 None None None).
Proof.
  split; [vm_compute; reflexivity|].
  destruct (proj1 (proj2 C84_elements) far_register (DimElement 8 2 None None None)) as [H|H]; [vm_compute in H; discriminate H|exact H].
Qed.
