(** Proofs about chains of builder calls. *)
From Verif Require Import Base Names Types Validate Builders Setters SpecValidate SpecBuild SpecCalls ValidateProofs BuilderProofs.

Section Chains.
  Context {B C : Type} (set : C -> B -> B).
  Lemma chain_given {A} (pi : B -> option A) (q : C -> option A) :
    (forall c b, pi (set c b) = match q c with Some v => Some v | None => pi b end) ->
    forall cs b, pi b = None -> pi (chain set b cs) = latest q cs.
  Proof.
    intros H cs b E. enough (G : pi (chain set b cs) = match latest q cs with Some v => Some v | None => pi b end).
    { rewrite G, E. now destruct (latest q cs). }
    clear E. revert b. induction cs as [|c cs IH]; intros b; [reflexivity|].
    cbn [chain fold_left latest]. unfold chain in IH. rewrite IH. destruct (latest q cs); [reflexivity|apply H].
  Qed.
  Lemma chain_value {A} (pi : B -> A) (q : C -> option A) :
    (forall c b, pi (set c b) = match q c with Some v => v | None => pi b end) ->
    forall cs b, pi (chain set b cs) = match latest q cs with Some v => v | None => pi b end.
  Proof.
    intros H cs. induction cs as [|c cs IH]; intros b; [reflexivity|].
    cbn [chain fold_left latest]. unfold chain in IH. rewrite IH. destruct (latest q cs); [reflexivity|apply H].
  Qed.
End Chains.
Lemma latest_map {C A B} (f : A -> B) (q : C -> option A) cs :
  latest (fun c => option_map f (q c)) cs = option_map f (latest q cs).
Proof. induction cs as [|c cs IH]; [reflexivity|]. cbn [latest]. rewrite IH. now destruct (latest q cs). Qed.
Lemma latest_ext {C A} (q q' : C -> option A) cs : (forall c, q c = q' c) -> latest q cs = latest q' cs.
Proof. intros H. induction cs as [|c cs IH]; [reflexivity|]. cbn [latest]. now rewrite IH, H. Qed.
Ltac kept_bits := cbn; unfold fb_set_bit_range, fb_set_bit_offset, fb_set_bit_width; repeat match goal with |- context [match ?o with Some _ => _ | None => _ end] => destruct o end; reflexivity.
Ltac given set pi := apply (chain_given set pi); [intros c b; destruct c; try reflexivity; kept_bits|reflexivity].
Ltac plain set pi := apply (chain_value set pi); intros c b; destruct c; try reflexivity; kept_bits.

Lemma value_calls cs :
  evb_name (chain value_set value_new cs) = latest (fun c => match c with with_value_name v => Some v | _ => None end) cs /\
  evb_description (chain value_set value_new cs) = match latest (fun c => match c with with_value_description v => Some v | _ => None end) cs with Some v => v | None => None end /\
  evb_value (chain value_set value_new cs) = match latest (fun c => match c with with_value_value v => Some v | _ => None end) cs with Some v => v | None => None end /\
  evb_is_default (chain value_set value_new cs) = match latest (fun c => match c with with_value_is_default v => Some v | _ => None end) cs with Some v => v | None => None end.
Proof.
  repeat apply conj.
  - given value_set evb_name.
  - plain value_set evb_description.
  - plain value_set evb_value.
  - plain value_set evb_is_default.
Qed.

Lemma values_calls cs :
  evsb_name (chain values_set values_new cs) = match latest (fun c => match c with with_values_name v => Some v | _ => None end) cs with Some v => v | None => None end /\
  evsb_usage (chain values_set values_new cs) = match latest (fun c => match c with with_values_usage v => Some v | _ => None end) cs with Some v => v | None => None end /\
  evsb_derived_from (chain values_set values_new cs) = match latest (fun c => match c with with_values_derived_from v => Some v | _ => None end) cs with Some v => v | None => None end /\
  evsb_values (chain values_set values_new cs) = latest (fun c => match c with with_values_values v => Some v | _ => None end) cs.
Proof.
  repeat apply conj.
  - plain values_set evsb_name.
  - plain values_set evsb_usage.
  - plain values_set evsb_derived_from.
  - given values_set evsb_values.
Qed.

Lemma dim_calls cs :
  deb_dim (chain dim_set dim_new cs) = latest (fun c => match c with with_dim_dim v => Some v | _ => None end) cs /\
  deb_increment (chain dim_set dim_new cs) = latest (fun c => match c with with_dim_dim_increment v => Some v | _ => None end) cs /\
  deb_index (chain dim_set dim_new cs) = match latest (fun c => match c with with_dim_dim_index v => Some v | _ => None end) cs with Some v => v | None => None end /\
  deb_name (chain dim_set dim_new cs) = match latest (fun c => match c with with_dim_dim_name v => Some v | _ => None end) cs with Some v => v | None => None end /\
  deb_array_index (chain dim_set dim_new cs) = match latest (fun c => match c with with_dim_dim_array_index v => Some v | _ => None end) cs with Some v => v | None => None end.
Proof.
  repeat apply conj.
  - given dim_set deb_dim.
  - given dim_set deb_increment.
  - plain dim_set deb_index.
  - plain dim_set deb_name.
  - plain dim_set deb_array_index.
Qed.

Lemma field_calls cs :
  fb_name (chain field_set field_new cs) = latest (fun c => match c with with_field_name v => Some v | _ => None end) cs /\
  fb_description (chain field_set field_new cs) = match latest (fun c => match c with with_field_description v => Some v | _ => None end) cs with Some v => v | None => None end /\
  fb_access (chain field_set field_new cs) = match latest (fun c => match c with with_field_access v => Some v | _ => None end) cs with Some v => v | None => None end /\
  fb_mwv (chain field_set field_new cs) = match latest (fun c => match c with with_field_modified_write_values v => Some v | _ => None end) cs with Some v => v | None => None end /\
  fb_write_constraint (chain field_set field_new cs) = match latest (fun c => match c with with_field_write_constraint v => Some v | _ => None end) cs with Some v => v | None => None end /\
  fb_read_action (chain field_set field_new cs) = match latest (fun c => match c with with_field_read_action v => Some v | _ => None end) cs with Some v => v | None => None end /\
  fb_enumerated_values (chain field_set field_new cs) = latest (fun c => match c with with_field_enumerated_values v => Some v | _ => None end) cs /\
  fb_derived_from (chain field_set field_new cs) = match latest (fun c => match c with with_field_derived_from v => Some v | _ => None end) cs with Some v => v | None => None end.
Proof.
  repeat apply conj.
  - given field_set fb_name.
  - plain field_set fb_description.
  - plain field_set fb_access.
  - plain field_set fb_mwv.
  - plain field_set fb_write_constraint.
  - plain field_set fb_read_action.
  - given field_set fb_enumerated_values.
  - plain field_set fb_derived_from.
Qed.

Lemma register_calls cs :
  rb_name (chain register_set register_new cs) = latest (fun c => match c with with_register_name v => Some v | _ => None end) cs /\
  rb_display_name (chain register_set register_new cs) = match latest (fun c => match c with with_register_display_name v => Some v | _ => None end) cs with Some v => v | None => None end /\
  rb_description (chain register_set register_new cs) = match latest (fun c => match c with with_register_description v => Some v | _ => None end) cs with Some v => v | None => None end /\
  rb_alternate_group (chain register_set register_new cs) = match latest (fun c => match c with with_register_alternate_group v => Some v | _ => None end) cs with Some v => v | None => None end /\
  rb_alternate_register (chain register_set register_new cs) = match latest (fun c => match c with with_register_alternate_register v => Some v | _ => None end) cs with Some v => v | None => None end /\
  rb_address_offset (chain register_set register_new cs) = latest (fun c => match c with with_register_address_offset v => Some v | _ => None end) cs /\
  rp_size (rb_properties (chain register_set register_new cs)) = match latest (fun c => match c with with_register_properties p => Some (rp_size p) | with_register_size v => Some v | _ => None end) cs with Some v => v | None => None end /\
  rp_access (rb_properties (chain register_set register_new cs)) = match latest (fun c => match c with with_register_properties p => Some (rp_access p) | with_register_access v => Some v | _ => None end) cs with Some v => v | None => None end /\
  rp_protection (rb_properties (chain register_set register_new cs)) = match latest (fun c => match c with with_register_properties p => Some (rp_protection p) | _ => None end) cs with Some v => v | None => None end /\
  rp_reset_value (rb_properties (chain register_set register_new cs)) = match latest (fun c => match c with with_register_properties p => Some (rp_reset_value p) | with_register_reset_value v => Some v | _ => None end) cs with Some v => v | None => None end /\
  rp_reset_mask (rb_properties (chain register_set register_new cs)) = match latest (fun c => match c with with_register_properties p => Some (rp_reset_mask p) | with_register_reset_mask v => Some v | _ => None end) cs with Some v => v | None => None end /\
  rb_datatype (chain register_set register_new cs) = match latest (fun c => match c with with_register_datatype v => Some v | _ => None end) cs with Some v => v | None => None end /\
  rb_mwv (chain register_set register_new cs) = match latest (fun c => match c with with_register_modified_write_values v => Some v | _ => None end) cs with Some v => v | None => None end /\
  rb_write_constraint (chain register_set register_new cs) = match latest (fun c => match c with with_register_write_constraint v => Some v | _ => None end) cs with Some v => v | None => None end /\
  rb_read_action (chain register_set register_new cs) = match latest (fun c => match c with with_register_read_action v => Some v | _ => None end) cs with Some v => v | None => None end /\
  rb_fields (chain register_set register_new cs) = match latest (fun c => match c with with_register_fields v => Some v | _ => None end) cs with Some v => v | None => None end /\
  rb_derived_from (chain register_set register_new cs) = match latest (fun c => match c with with_register_derived_from v => Some v | _ => None end) cs with Some v => v | None => None end.
Proof.
  repeat apply conj.
  - given register_set rb_name.
  - plain register_set rb_display_name.
  - plain register_set rb_description.
  - plain register_set rb_alternate_group.
  - plain register_set rb_alternate_register.
  - given register_set rb_address_offset.
  - apply (chain_value register_set (fun b => rp_size (rb_properties b))); intros c b; now destruct c.
  - apply (chain_value register_set (fun b => rp_access (rb_properties b))); intros c b; now destruct c.
  - apply (chain_value register_set (fun b => rp_protection (rb_properties b))); intros c b; now destruct c.
  - apply (chain_value register_set (fun b => rp_reset_value (rb_properties b))); intros c b; now destruct c.
  - apply (chain_value register_set (fun b => rp_reset_mask (rb_properties b))); intros c b; now destruct c.
  - plain register_set rb_datatype.
  - plain register_set rb_mwv.
  - plain register_set rb_write_constraint.
  - plain register_set rb_read_action.
  - plain register_set rb_fields.
  - plain register_set rb_derived_from.
Qed.

Lemma cluster_calls cs :
  cb_name (chain cluster_set cluster_new cs) = latest (fun c => match c with with_cluster_name v => Some v | _ => None end) cs /\
  cb_description (chain cluster_set cluster_new cs) = match latest (fun c => match c with with_cluster_description v => Some v | _ => None end) cs with Some v => v | None => None end /\
  cb_alternate_cluster (chain cluster_set cluster_new cs) = match latest (fun c => match c with with_cluster_alternate_cluster v => Some v | _ => None end) cs with Some v => v | None => None end /\
  cb_header_struct_name (chain cluster_set cluster_new cs) = match latest (fun c => match c with with_cluster_header_struct_name v => Some v | _ => None end) cs with Some v => v | None => None end /\
  cb_address_offset (chain cluster_set cluster_new cs) = latest (fun c => match c with with_cluster_address_offset v => Some v | _ => None end) cs /\
  cb_default_properties (chain cluster_set cluster_new cs) = match latest (fun c => match c with with_cluster_default_register_properties v => Some v | _ => None end) cs with Some v => v | None => rp_default end /\
  cb_children (chain cluster_set cluster_new cs) = latest (fun c => match c with with_cluster_children v => Some v | _ => None end) cs /\
  cb_derived_from (chain cluster_set cluster_new cs) = match latest (fun c => match c with with_cluster_derived_from v => Some v | _ => None end) cs with Some v => v | None => None end.
Proof.
  repeat apply conj.
  - given cluster_set cb_name.
  - plain cluster_set cb_description.
  - plain cluster_set cb_alternate_cluster.
  - plain cluster_set cb_header_struct_name.
  - given cluster_set cb_address_offset.
  - plain cluster_set cb_default_properties.
  - given cluster_set cb_children.
  - plain cluster_set cb_derived_from.
Qed.

Lemma block_calls cs :
  abb_offset (chain block_set block_new cs) = latest (fun c => match c with with_block_offset v => Some v | _ => None end) cs /\
  abb_size (chain block_set block_new cs) = latest (fun c => match c with with_block_size v => Some v | _ => None end) cs /\
  abb_use (chain block_set block_new cs) = latest (fun c => match c with with_block_usage v => Some v | _ => None end) cs /\
  abb_protection (chain block_set block_new cs) = match latest (fun c => match c with with_block_protection v => Some v | _ => None end) cs with Some v => v | None => None end.
Proof.
  repeat apply conj.
  - given block_set abb_offset.
  - given block_set abb_size.
  - given block_set abb_use.
  - plain block_set abb_protection.
Qed.

Lemma interrupt_calls cs :
  itb_name (chain interrupt_set interrupt_new cs) = latest (fun c => match c with with_interrupt_name v => Some v | _ => None end) cs /\
  itb_description (chain interrupt_set interrupt_new cs) = match latest (fun c => match c with with_interrupt_description v => Some v | _ => None end) cs with Some v => v | None => None end /\
  itb_value (chain interrupt_set interrupt_new cs) = latest (fun c => match c with with_interrupt_value v => Some v | _ => None end) cs.
Proof.
  repeat apply conj.
  - given interrupt_set itb_name.
  - plain interrupt_set itb_description.
  - given interrupt_set itb_value.
Qed.

Lemma peripheral_calls cs :
  pb_name (chain peripheral_set peripheral_new cs) = latest (fun c => match c with with_peripheral_name v => Some v | _ => None end) cs /\
  pb_display_name (chain peripheral_set peripheral_new cs) = match latest (fun c => match c with with_peripheral_display_name v => Some v | _ => None end) cs with Some v => v | None => None end /\
  pb_version (chain peripheral_set peripheral_new cs) = match latest (fun c => match c with with_peripheral_version v => Some v | _ => None end) cs with Some v => v | None => None end /\
  pb_description (chain peripheral_set peripheral_new cs) = match latest (fun c => match c with with_peripheral_description v => Some v | _ => None end) cs with Some v => v | None => None end /\
  pb_alternate_peripheral (chain peripheral_set peripheral_new cs) = match latest (fun c => match c with with_peripheral_alternate_peripheral v => Some v | _ => None end) cs with Some v => v | None => None end /\
  pb_group_name (chain peripheral_set peripheral_new cs) = match latest (fun c => match c with with_peripheral_group_name v => Some v | _ => None end) cs with Some v => v | None => None end /\
  pb_prepend_to_name (chain peripheral_set peripheral_new cs) = match latest (fun c => match c with with_peripheral_prepend_to_name v => Some v | _ => None end) cs with Some v => v | None => None end /\
  pb_append_to_name (chain peripheral_set peripheral_new cs) = match latest (fun c => match c with with_peripheral_append_to_name v => Some v | _ => None end) cs with Some v => v | None => None end /\
  pb_header_struct_name (chain peripheral_set peripheral_new cs) = match latest (fun c => match c with with_peripheral_header_struct_name v => Some v | _ => None end) cs with Some v => v | None => None end /\
  pb_base_address (chain peripheral_set peripheral_new cs) = latest (fun c => match c with with_peripheral_base_address v => Some v | _ => None end) cs /\
  pb_default_properties (chain peripheral_set peripheral_new cs) = match latest (fun c => match c with with_peripheral_default_register_properties v => Some v | _ => None end) cs with Some v => v | None => rp_default end /\
  pb_address_block (chain peripheral_set peripheral_new cs) = match latest (fun c => match c with with_peripheral_address_block v => Some v | _ => None end) cs with Some v => v | None => None end /\
  pb_interrupt (chain peripheral_set peripheral_new cs) = match latest (fun c => match c with with_peripheral_interrupt v => Some v | _ => None end) cs with Some v => v | None => None end /\
  pb_registers (chain peripheral_set peripheral_new cs) = match latest (fun c => match c with with_peripheral_registers v => Some v | _ => None end) cs with Some v => v | None => None end /\
  pb_derived_from (chain peripheral_set peripheral_new cs) = match latest (fun c => match c with with_peripheral_derived_from v => Some v | _ => None end) cs with Some v => v | None => None end.
Proof.
  repeat apply conj.
  - given peripheral_set pb_name.
  - plain peripheral_set pb_display_name.
  - plain peripheral_set pb_version.
  - plain peripheral_set pb_description.
  - plain peripheral_set pb_alternate_peripheral.
  - plain peripheral_set pb_group_name.
  - plain peripheral_set pb_prepend_to_name.
  - plain peripheral_set pb_append_to_name.
  - plain peripheral_set pb_header_struct_name.
  - given peripheral_set pb_base_address.
  - plain peripheral_set pb_default_properties.
  - plain peripheral_set pb_address_block.
  - plain peripheral_set pb_interrupt.
  - plain peripheral_set pb_registers.
  - plain peripheral_set pb_derived_from.
Qed.

Lemma cpu_calls cs :
  cpub_name (chain cpu_set cpu_new cs) = latest (fun c => match c with with_cpu_name v => Some v | _ => None end) cs /\
  cpub_revision (chain cpu_set cpu_new cs) = latest (fun c => match c with with_cpu_revision v => Some v | _ => None end) cs /\
  cpub_endian (chain cpu_set cpu_new cs) = latest (fun c => match c with with_cpu_endian v => Some v | _ => None end) cs /\
  cpub_mpu_present (chain cpu_set cpu_new cs) = latest (fun c => match c with with_cpu_mpu_present v => Some v | _ => None end) cs /\
  cpub_fpu_present (chain cpu_set cpu_new cs) = latest (fun c => match c with with_cpu_fpu_present v => Some v | _ => None end) cs /\
  cpub_fpu_double_precision (chain cpu_set cpu_new cs) = match latest (fun c => match c with with_cpu_fpu_double_precision v => Some v | _ => None end) cs with Some v => v | None => None end /\
  cpub_dsp_present (chain cpu_set cpu_new cs) = match latest (fun c => match c with with_cpu_dsp_present v => Some v | _ => None end) cs with Some v => v | None => None end /\
  cpub_icache_present (chain cpu_set cpu_new cs) = match latest (fun c => match c with with_cpu_icache_present v => Some v | _ => None end) cs with Some v => v | None => None end /\
  cpub_dcache_present (chain cpu_set cpu_new cs) = match latest (fun c => match c with with_cpu_dcache_present v => Some v | _ => None end) cs with Some v => v | None => None end /\
  cpub_itcm_present (chain cpu_set cpu_new cs) = match latest (fun c => match c with with_cpu_itcm_present v => Some v | _ => None end) cs with Some v => v | None => None end /\
  cpub_dtcm_present (chain cpu_set cpu_new cs) = match latest (fun c => match c with with_cpu_dtcm_present v => Some v | _ => None end) cs with Some v => v | None => None end /\
  cpub_vtor_present (chain cpu_set cpu_new cs) = match latest (fun c => match c with with_cpu_vtor_present v => Some v | _ => None end) cs with Some v => v | None => None end /\
  cpub_nvic_priority_bits (chain cpu_set cpu_new cs) = latest (fun c => match c with with_cpu_nvic_priority_bits v => Some v | _ => None end) cs /\
  cpub_has_vendor_systick (chain cpu_set cpu_new cs) = latest (fun c => match c with with_cpu_has_vendor_systick v => Some v | _ => None end) cs /\
  cpub_device_num_interrupts (chain cpu_set cpu_new cs) = match latest (fun c => match c with with_cpu_device_num_interrupts v => Some v | _ => None end) cs with Some v => v | None => None end /\
  cpub_sau_num_regions (chain cpu_set cpu_new cs) = match latest (fun c => match c with with_cpu_sau_num_regions v => Some v | _ => None end) cs with Some v => v | None => None end.
Proof.
  repeat apply conj.
  - given cpu_set cpub_name.
  - given cpu_set cpub_revision.
  - given cpu_set cpub_endian.
  - given cpu_set cpub_mpu_present.
  - given cpu_set cpub_fpu_present.
  - plain cpu_set cpub_fpu_double_precision.
  - plain cpu_set cpub_dsp_present.
  - plain cpu_set cpub_icache_present.
  - plain cpu_set cpub_dcache_present.
  - plain cpu_set cpub_itcm_present.
  - plain cpu_set cpub_dtcm_present.
  - plain cpu_set cpub_vtor_present.
  - given cpu_set cpub_nvic_priority_bits.
  - given cpu_set cpub_has_vendor_systick.
  - plain cpu_set cpub_device_num_interrupts.
  - plain cpu_set cpub_sau_num_regions.
Qed.

Lemma device_calls cs :
  db_vendor (chain device_set device_new cs) = match latest (fun c => match c with with_device_vendor v => Some v | _ => None end) cs with Some v => v | None => None end /\
  db_vendor_id (chain device_set device_new cs) = match latest (fun c => match c with with_device_vendor_id v => Some v | _ => None end) cs with Some v => v | None => None end /\
  db_name (chain device_set device_new cs) = latest (fun c => match c with with_device_name v => Some v | _ => None end) cs /\
  db_series (chain device_set device_new cs) = match latest (fun c => match c with with_device_series v => Some v | _ => None end) cs with Some v => v | None => None end /\
  db_version (chain device_set device_new cs) = latest (fun c => match c with with_device_version v => Some v | _ => None end) cs /\
  db_description (chain device_set device_new cs) = latest (fun c => match c with with_device_description v => Some v | _ => None end) cs /\
  db_license_text (chain device_set device_new cs) = match latest (fun c => match c with with_device_license_text v => Some v | _ => None end) cs with Some v => v | None => None end /\
  db_cpu (chain device_set device_new cs) = match latest (fun c => match c with with_device_cpu v => Some v | _ => None end) cs with Some v => v | None => None end /\
  db_header_system_filename (chain device_set device_new cs) = match latest (fun c => match c with with_device_header_system_filename v => Some v | _ => None end) cs with Some v => v | None => None end /\
  db_header_definitions_prefix (chain device_set device_new cs) = match latest (fun c => match c with with_device_header_definitions_prefix v => Some v | _ => None end) cs with Some v => v | None => None end /\
  db_address_unit_bits (chain device_set device_new cs) = latest (fun c => match c with with_device_address_unit_bits v => Some v | _ => None end) cs /\
  db_width (chain device_set device_new cs) = latest (fun c => match c with with_device_width v => Some v | _ => None end) cs /\
  db_default_properties (chain device_set device_new cs) = match latest (fun c => match c with with_device_default_register_properties v => Some v | _ => None end) cs with Some v => v | None => rp_default end /\
  db_peripherals (chain device_set device_new cs) = latest (fun c => match c with with_device_peripherals v => Some v | _ => None end) cs /\
  db_xmlns_xs (chain device_set device_new cs) = latest (fun c => match c with with_device_xmlns_xs v => Some v | _ => None end) cs /\
  db_no_namespace_schema_location (chain device_set device_new cs) = latest (fun c => match c with with_device_no_namespace_schema_location v => Some v | _ => None end) cs /\
  db_schema_version (chain device_set device_new cs) = latest (fun c => match c with with_device_schema_version v => Some v | _ => None end) cs.
Proof.
  repeat apply conj.
  - plain device_set db_vendor.
  - plain device_set db_vendor_id.
  - given device_set db_name.
  - plain device_set db_series.
  - given device_set db_version.
  - given device_set db_description.
  - plain device_set db_license_text.
  - plain device_set db_cpu.
  - plain device_set db_header_system_filename.
  - plain device_set db_header_definitions_prefix.
  - given device_set db_address_unit_bits.
  - given device_set db_width.
  - plain device_set db_default_properties.
  - given device_set db_peripherals.
  - given device_set db_xmlns_xs.
  - given device_set db_no_namespace_schema_location.
  - given device_set db_schema_version.
Qed.

Lemma may_text_eq {C} (q : C -> option (option string)) cs x :
  may_text q cs x <-> x = empty_str_to_none match latest q cs with Some v => v | None => None end.
Proof. unfold may_text. destruct (latest q cs) as [[[|]|]|]; reflexivity. Qed.
Lemma may_list_eq {C A} (q : C -> option (option (list A))) cs x :
  may_list q cs x <-> x = empty_vec_to_none match latest q cs with Some v => v | None => None end.
Proof. unfold may_list. destruct (latest q cs) as [[[|]|]|]; reflexivity. Qed.
Lemma may_many_eq {C A} (q : C -> option (option (list A))) cs x :
  may_many q cs x <-> x = opt_default [] match latest q cs with Some v => v | None => None end.
Proof. unfold may_many. destruct (latest q cs) as [[[|]|]|]; reflexivity. Qed.
Lemma or_else_eq {C A} (d : A) (q : C -> option A) cs x : or_else d q cs x <-> x = opt_default d (latest q cs).
Proof. unfold or_else. destruct (latest q cs); reflexivity. Qed.
Ltac each := repeat match goal with H : _ /\ _ |- _ => destruct H end.
Ltac both := repeat match goal with |- _ /\ _ => split end.
Ltac solve_built x :=
  split; [intros; each; subst; cbn; both; auto
         |destruct x; cbn; intros; each; repeat match goal with H : Some _ = Some _ |- _ => injection H as H end;
          subst; both; auto].
Ltac solve_register x :=
  split; [intros; each; subst; cbn; both; auto
         |destruct x; repeat match goal with p : reg_props |- _ => destruct p end; cbn; intros; each; repeat match goal with H : Some _ = Some _ |- _ => injection H as H end;
          subst; both; auto].
Ltac judged :=
  rewrite ?rp_bind; cbn [required ok_or bind]; rewrite ?validated_ok, ?ev_validate_ok, ?evs_validate_ok, ?field_validate_ok, ?register_validate_ok, ?cluster_validate_ok,
    ?peripheral_validate_ok, ?device_validate_ok.
Ltac asked :=
  repeat match goal with |- context [required _ (latest ?q ?cs)] => destruct (latest q cs) eqn:? end;
  cbn [required ok_or bind].

Lemma value_chain l cs x :
  ev_build l (chain value_set value_new cs) = Ok x <-> value_built cs x /\ value_ok l x.
Proof.
  destruct (value_calls cs) as (E0 & E1 & E2 & E3). set (b := chain _ _ _) in *. clearbody b.
  unfold ev_build, value_built. rewrite ?may_text_eq, ?may_list_eq, ?may_many_eq, ?or_else_eq. unfold must, may.
  rewrite E0, E1, E2, E3. asked; judged.
  all: try (split; intros; each; discriminate).
  solve_built x.
Qed.

Lemma values_chain l cs x :
  evs_build l (chain values_set values_new cs) = Ok x <-> values_built cs x /\ values_ok l x.
Proof.
  destruct (values_calls cs) as (E0 & E1 & E2 & E3). set (b := chain _ _ _) in *. clearbody b.
  unfold evs_build, values_built. rewrite ?may_text_eq, ?may_list_eq, ?may_many_eq, ?or_else_eq. unfold must, may.
  rewrite E0, E1, E2, E3. asked; judged.
  all: try (split; intros; each; discriminate).
  solve_built x.
Qed.

Lemma dim_chain l cs x :
  de_build l (chain dim_set dim_new cs) = Ok x <-> dim_built cs x.
Proof.
  destruct (dim_calls cs) as (E0 & E1 & E2 & E3 & E4). set (b := chain _ _ _) in *. clearbody b.
  unfold de_build, dim_built. rewrite ?may_text_eq, ?may_list_eq, ?may_many_eq, ?or_else_eq. unfold must, may.
  rewrite E0, E1, E2, E3, E4. asked; judged.
  all: try (split; intros; each; discriminate).
  solve_built x.
Qed.

Lemma register_chain l cs x :
  register_build l (chain register_set register_new cs) = Ok x <-> register_built cs x /\ props_ok l (r_properties x) /\ register_ok l x.
Proof.
  destruct (register_calls cs) as (E0 & E1 & E2 & E3 & E4 & E5 & E6 & E7 & E8 & E9 & E10 & E11 & E12 & E13 & E14 & E15 & E16). set (b := chain _ _ _) in *. clearbody b.
  assert (EP : rb_properties b = RegProps _ _ _ _ _) by (destruct (rb_properties b); cbn in E6, E7, E8, E9, E10; subst; reflexivity).
  unfold register_build, register_built. rewrite ?may_text_eq, ?may_list_eq, ?may_many_eq, ?or_else_eq. unfold must, may.
  rewrite E0, E1, E2, E3, E4, E5, EP, E11, E12, E13, E14, E15, E16. asked; judged.
  all: try (split; intros; each; discriminate).
  solve_register x.
Qed.

Lemma cluster_chain l cs x :
  cluster_build l (chain cluster_set cluster_new cs) = Ok x <-> cluster_built cs x /\ props_ok l (c_default_properties x) /\ cluster_ok l x.
Proof.
  destruct (cluster_calls cs) as (E0 & E1 & E2 & E3 & E4 & E5 & E6 & E7). set (b := chain _ _ _) in *. clearbody b.
  unfold cluster_build, cluster_built. rewrite ?may_text_eq, ?may_list_eq, ?may_many_eq, ?or_else_eq. unfold must, may.
  rewrite E0, E1, E2, E3, E4, E5, E6, E7. asked; judged.
  all: try (split; intros; each; discriminate).
  solve_built x.
Qed.

Lemma block_chain l cs x :
  ab_build l (chain block_set block_new cs) = Ok x <-> block_built cs x.
Proof.
  destruct (block_calls cs) as (E0 & E1 & E2 & E3). set (b := chain _ _ _) in *. clearbody b.
  unfold ab_build, block_built. rewrite ?may_text_eq, ?may_list_eq, ?may_many_eq, ?or_else_eq. unfold must, may.
  rewrite E0, E1, E2, E3. asked; judged.
  all: try (split; intros; each; discriminate).
  solve_built x.
Qed.

Lemma interrupt_chain l cs x :
  it_build l (chain interrupt_set interrupt_new cs) = Ok x <-> interrupt_built cs x.
Proof.
  destruct (interrupt_calls cs) as (E0 & E1 & E2). set (b := chain _ _ _) in *. clearbody b.
  unfold it_build, interrupt_built. rewrite ?may_text_eq, ?may_list_eq, ?may_many_eq, ?or_else_eq. unfold must, may.
  rewrite E0, E1, E2. asked; judged.
  all: try (split; intros; each; discriminate).
  solve_built x.
Qed.

Lemma peripheral_chain l cs x :
  peripheral_build l (chain peripheral_set peripheral_new cs) = Ok x <-> peripheral_built cs x /\ props_ok l (p_default_properties x) /\ peripheral_ok l x.
Proof.
  destruct (peripheral_calls cs) as (E0 & E1 & E2 & E3 & E4 & E5 & E6 & E7 & E8 & E9 & E10 & E11 & E12 & E13 & E14). set (b := chain _ _ _) in *. clearbody b.
  unfold peripheral_build, peripheral_built. rewrite ?may_text_eq, ?may_list_eq, ?may_many_eq, ?or_else_eq. unfold must, may.
  rewrite E0, E1, E2, E3, E4, E5, E6, E7, E8, E9, E10, E11, E12, E13, E14. asked; judged.
  all: try (split; intros; each; discriminate).
  solve_built x.
Qed.

Lemma cpu_chain l cs x :
  cpu_build l (chain cpu_set cpu_new cs) = Ok x <-> cpu_built cs x.
Proof.
  destruct (cpu_calls cs) as (E0 & E1 & E2 & E3 & E4 & E5 & E6 & E7 & E8 & E9 & E10 & E11 & E12 & E13 & E14 & E15). set (b := chain _ _ _) in *. clearbody b.
  unfold cpu_build, cpu_built. rewrite ?may_text_eq, ?may_list_eq, ?may_many_eq, ?or_else_eq. unfold must, may.
  rewrite E0, E1, E2, E3, E4, E5, E6, E7, E8, E9, E10, E11, E12, E13, E14, E15. asked; judged.
  all: try (split; intros; each; discriminate).
  solve_built x.
Qed.

Lemma below_eq {C A} l w (d : A) (q : C -> option A) cs x :
  required w (unless_strict l d (latest q cs)) = Ok x <-> below_strict l d q cs x.
Proof.
  rewrite required_ok. unfold below_strict, unless_strict. destruct (latest q cs); cbn; [split; [auto|intros [H|(H & _)]; [auto|discriminate]]|].
  destruct l; cbn; split; try (intros [H|(H & N & X)]; [discriminate|]); try congruence.
  all: intros H; try discriminate; injection H as <-; right; repeat split; congruence.
Qed.
Lemma device_chain l cs x :
  device_build l (chain device_set device_new cs) = Ok x <-> device_built l cs x /\ props_ok l (d_default_properties x) /\ device_ok l x.
Proof.
  destruct (device_calls cs) as (E0 & E1 & E2 & E3 & E4 & E5 & E6 & E7 & E8 & E9 & E10 & E11 & E12 & E13 & E14 & E15 & E16). set (b := chain _ _ _) in *. clearbody b.
  unfold device_build, device_built. rewrite ?or_else_eq. unfold must, may.
  rewrite E0, E1, E2, E3, E4, E5, E6, E7, E8, E9, E10, E11, E12, E13, E14, E15, E16.
  split.
  - intros H. do 7 (apply bind_ok' in H as (? & ? & H)). apply validated_ok in H as [-> V]. apply device_validate_ok in V.
    repeat match goal with Q : rp_build _ _ = Ok _ |- _ => apply rp_build_ok in Q as [-> Q] end.
    repeat match goal with Q : required _ (latest _ _) = Ok _ |- _ => apply required_ok in Q end.
    repeat match goal with Q : required _ (unless_strict _ _ _) = Ok _ |- _ => apply below_eq in Q end.
    cbn. both; eassumption || reflexivity.
  - destruct x; cbn. intros; each. subst.
    repeat match goal with Q : latest _ _ = Some _ |- _ => rewrite Q; clear Q | Q : below_strict _ _ _ _ _ |- _ => rewrite (proj2 (below_eq _ _ _ _ _ _) Q); clear Q end.
    cbn [required ok_or bind]. rewrite rp_bind. cbn [required ok_or bind]. rewrite validated_ok, device_validate_ok. both; auto; reflexivity.
Qed.

(** ** The bits of a field *)
Definition no_range (c : field_call) : Prop := match c with with_field_bit_range _ => False | _ => True end.
Definition no_bits (c : field_call) : Prop :=
  match c with with_field_bit_range _ | with_field_bit_offset _ | with_field_bit_width _ => False | _ => True end.
Definition no_start (c : field_call) : Prop :=
  match c with with_field_bit_range _ | with_field_bit_offset _ => False | _ => True end.
Definition asked_offset (c : field_call) : option N := match c with with_field_bit_offset v => Some v | _ => None end.
Definition asked_width (c : field_call) : option N := match c with with_field_bit_width v => Some v | _ => None end.
Lemma chain_app {B C} (set : C -> B -> B) b cs cs' : chain set b (cs ++ cs') = chain set (chain set b cs) cs'.
Proof. apply fold_left_app. Qed.
Lemma chain_cons {B C} (set : C -> B -> B) b c cs : chain set b (c :: cs) = chain set (set c b) cs.
Proof. reflexivity. Qed.
Lemma latest_app {C A} (q : C -> option A) cs cs' :
  latest q (cs ++ cs') = match latest q cs' with Some v => Some v | None => latest q cs end.
Proof.
  induction cs as [|c cs IH]; [cbn; now destruct (latest q cs')|]. cbn [app latest]. rewrite IH.
  now destruct (latest q cs').
Qed.
Lemma quiet cs : (forall c, In c cs -> no_bits c) -> forall b, fb_bit_range (chain field_set b cs) = fb_bit_range b /\
  fb_bit_offset (chain field_set b cs) = fb_bit_offset b.
Proof.
  induction cs as [|c cs IH]; intros H b; [auto|]. rewrite chain_cons. destruct (IH (fun c I => H c (or_intror I)) (field_set c b)) as [-> ->].
  generalize (H c (or_introl eq_refl)). destruct c; cbn; intros []; auto.
Qed.
Lemma not_started cs : (forall c, In c cs -> no_start c) -> forall b, fb_bit_range b = None -> fb_bit_offset b = None ->
  fb_bit_range (chain field_set b cs) = None /\ fb_bit_offset (chain field_set b cs) = None.
Proof.
  induction cs as [|c cs IH]; intros H b R O; [auto|]. rewrite chain_cons. apply IH; [intros; apply H; now right| |].
  all: generalize (H c (or_introl eq_refl)); destruct c; cbn; intros []; auto; unfold fb_set_bit_width; rewrite R, O; auto.
Qed.
Lemma after_fixed cs : (forall c, In c cs -> no_range c) -> forall b r, fb_bit_range b = Some r ->
  fb_bit_range (chain field_set b cs) = Some (BitRange match latest asked_offset cs with Some v => v | None => br_offset r end
    match latest asked_width cs with Some v => v | None => br_width r end (br_type r)).
Proof.
  induction cs as [|c cs IH]; intros H b r E; [cbn; rewrite E; now destruct r|]. rewrite chain_cons.
  assert (G : exists r', fb_bit_range (field_set c b) = Some r' /\ br_type r' = br_type r /\
    br_offset r' = match asked_offset c with Some v => v | None => br_offset r end /\
    br_width r' = match asked_width c with Some v => v | None => br_width r end).
  { generalize (H c (or_introl eq_refl)).
    destruct c; cbn; intros []; eauto 6; unfold fb_set_bit_width, fb_set_bit_offset; rewrite E; cbn; eauto 6. }
  destruct G as (r' & E' & T & O & W).
  rewrite (IH (fun c I => H c (or_intror I)) _ r' E'), T, O, W. cbn [latest].
  now destruct (latest asked_offset cs), (latest asked_width cs).
Qed.
Lemma bits_forward cs b : bits_built cs b -> fb_bit_range (chain field_set field_new cs) = Some b.
Proof.
  intros (r & post & F & N & T & O & W).
  enough (G : exists b0, chain field_set field_new cs = chain field_set b0 post /\ fb_bit_range b0 = Some r).
  { destruct G as (b0 & -> & E). rewrite (after_fixed post N b0 r E). destruct b; cbn in *. unfold or_else in O, W. subst. reflexivity. }
  destruct F as [pre r post|pre o mid w post P M|pre o mid w post P M].
  - eexists. rewrite chain_app, chain_cons. split; reflexivity.
  - eexists. rewrite chain_app, chain_cons, chain_app, chain_cons. split; [reflexivity|].
    destruct (not_started pre P field_new eq_refl eq_refl) as [R1 O1]. set (b1 := chain field_set field_new pre) in *.
    assert (S2 : fb_bit_range (field_set (with_field_bit_offset o) b1) = None /\ fb_bit_offset (field_set (with_field_bit_offset o) b1) = Some o).
    { cbn. unfold fb_set_bit_offset. rewrite R1, O1. auto. }
    destruct (quiet mid M (field_set (with_field_bit_offset o) b1)) as [R3 O3]. destruct S2 as [R2 O2]. rewrite R2 in R3. rewrite O2 in O3.
    set (b3 := chain field_set _ mid) in *. change (fb_bit_range (fb_set_bit_width w b3) = Some (BitRange o w BRT_OffsetWidth)).
    unfold fb_set_bit_width. rewrite R3, O3. reflexivity.
  - eexists. rewrite chain_app, chain_cons, chain_app, chain_cons. split; [reflexivity|].
    destruct (not_started pre P field_new eq_refl eq_refl) as [R1 O1]. set (b1 := chain field_set field_new pre) in *.
    assert (S2 : fb_bit_range (field_set (with_field_bit_offset o) b1) = None /\ fb_bit_offset (field_set (with_field_bit_offset o) b1) = Some o).
    { cbn. unfold fb_set_bit_offset. rewrite R1, O1. auto. }
    destruct (quiet mid M (field_set (with_field_bit_offset o) b1)) as [R3 O3]. destruct S2 as [R2 O2]. rewrite R2 in R3. rewrite O2 in O3.
    set (b3 := chain field_set _ mid) in *. change (fb_bit_range (fb_set_bit_offset w b3) = Some (BitRange w o BRT_OffsetWidth)).
    unfold fb_set_bit_offset. rewrite R3, O3. reflexivity.
Qed.
Lemma fixed_snoc cs r post c : bits_fixed cs r post -> bits_fixed (cs ++ [c]) r (post ++ [c]).
Proof.
  intros F. destruct F as [pre r post|pre o mid w post P M|pre o mid w post P M].
  - rewrite <- app_assoc. apply (fixed_range pre r (post ++ [c])).
  - rewrite <- app_assoc. cbn. rewrite <- app_assoc. apply (fixed_width pre o mid w (post ++ [c]) P M).
  - rewrite <- app_assoc. cbn. rewrite <- app_assoc. apply (fixed_offset pre o mid w (post ++ [c]) P M).
Qed.
Lemma built_snoc cs b c : bits_built cs b -> no_range c ->
  bits_built (cs ++ [c]) (BitRange match asked_offset c with Some v => v | None => br_offset b end
    match asked_width c with Some v => v | None => br_width b end (br_type b)).
Proof.
  intros (r & post & F & N & T & O & W) Nc. exists r, (post ++ [c]). split; [now apply fixed_snoc|]. split.
  { intros c' [I|[<-|[]]]%in_app_or; [now apply N|exact Nc]. }
  split; [exact T|]. unfold or_else in *. change (fun c => match c with with_field_bit_offset v => Some v | _ => None end) with asked_offset in *.
  change (fun c => match c with with_field_bit_width v => Some v | _ => None end) with asked_width in *.
  rewrite !latest_app. cbn [latest br_offset br_width]. rewrite O, W. destruct (asked_offset c), (asked_width c); auto.
Qed.
Definition started (cs : list field_call) (o : N) : Prop :=
  exists pre mid, cs = pre ++ with_field_bit_offset o :: mid /\ (forall c, In c pre -> no_start c) /\ (forall c, In c mid -> no_bits c).
Lemma bits_state cs : match fb_bit_range (chain field_set field_new cs) with
  | Some b => bits_built cs b
  | None => match fb_bit_offset (chain field_set field_new cs) with
            | Some o => started cs o
            | None => forall c, In c cs -> no_start c
            end
  end.
Proof.
  induction cs as [|c cs IH] using rev_ind; [cbn; intros _ []|]. rewrite chain_app, chain_cons. cbn [chain fold_left].
  set (b := chain field_set field_new cs) in *. clearbody b.
  assert (Here : forall r, bits_built (cs ++ [with_field_bit_range r]) r).
  { intros r. exists r, []. split; [apply fixed_range|]. split; [intros ? []|]. now repeat split. }
  destruct (fb_bit_range b) as [r|] eqn:R.
  - assert (S : no_range c -> fb_bit_range (field_set c b) = Some (BitRange match asked_offset c with Some v => v | None => br_offset r end
      match asked_width c with Some v => v | None => br_width r end (br_type r))).
    { intros Nc. exact (after_fixed [c] (fun c' I => match I with or_introl e => eq_ind c no_range Nc c' e | or_intror f => False_ind _ f end) b r R). }
    destruct c; try (rewrite S by exact Logic.I; apply built_snoc; [exact IH|exact Logic.I]). cbn. apply Here.
  - destruct (fb_bit_offset b) as [o|] eqn:O.
    + destruct IH as (pre & mid & -> & P & M).
      destruct c; cbn; try (rewrite R, O; eexists pre, (mid ++ [_]); split; [rewrite <- app_assoc; reflexivity|]; split; [exact P|];
        intros c' [I|[<-|[]]]%in_app_or; [now apply M|exact Logic.I]).
      * apply Here.
      * unfold fb_set_bit_offset. rewrite R, O. cbn. eexists _, []. rewrite <- app_assoc. cbn. split; [apply (fixed_offset pre o mid v [] P M)|].
        split; [intros ? []|]. now repeat split.
      * unfold fb_set_bit_width. rewrite R, O. cbn. eexists _, []. rewrite <- app_assoc. cbn. split; [apply (fixed_width pre o mid v [] P M)|].
        split; [intros ? []|]. now repeat split.
    + destruct c; cbn; try (rewrite R, O; intros c' [I|[<-|[]]]%in_app_or; [now apply IH|exact Logic.I]).
      * apply Here.
      * unfold fb_set_bit_offset. rewrite R, O. cbn. exists cs, []. split; [reflexivity|]. split; [exact IH|intros ? []].
      * unfold fb_set_bit_width. rewrite R, O. cbn. rewrite ?O. intros c' [I|[<-|[]]]%in_app_or; [now apply IH|exact Logic.I].
Qed.
Lemma bits_chain cs b : fb_bit_range (chain field_set field_new cs) = Some b <-> bits_built cs b.
Proof. split; [|apply bits_forward]. intros E. generalize (bits_state cs). now rewrite E. Qed.
Lemma field_chain l cs x :
  field_build l (chain field_set field_new cs) = Ok x <-> field_built cs x /\ field_ok l x.
Proof.
  destruct (field_calls cs) as (E0 & E1 & E2 & E3 & E4 & E5 & E6 & E7). generalize (bits_chain cs). set (b := chain _ _ _) in *. clearbody b.
  intros EB. unfold field_build, field_built. rewrite ?may_text_eq, ?or_else_eq, <- EB. unfold must, may.
  rewrite E0, E1, E2, E3, E4, E5, E6, E7. clear EB. destruct (fb_bit_range b) as [r|]; asked; judged.
  all: try (split; intros; each; discriminate).
  solve_built x.
Qed.

Lemma props_chain l cs x : rp_build l (chain props_set rp_default cs) = Ok x <-> props_built cs x /\ props_ok l x.
Proof.
  rewrite rp_build_ok. unfold props_built, may.
  assert (E : chain props_set rp_default cs = RegProps (rp_size (chain props_set rp_default cs)) (rp_access (chain props_set rp_default cs))
    (rp_protection (chain props_set rp_default cs)) (rp_reset_value (chain props_set rp_default cs)) (rp_reset_mask (chain props_set rp_default cs))) by now destruct (chain props_set rp_default cs).
  rewrite (chain_value props_set rp_size (fun c => match c with with_props_size v => Some v | _ => None end)) in E by (intros [] ?; reflexivity).
  rewrite (chain_value props_set rp_access (fun c => match c with with_props_access v => Some v | _ => None end)) in E by (intros [] ?; reflexivity).
  rewrite (chain_value props_set rp_protection (fun c => match c with with_props_protection v => Some v | _ => None end)) in E by (intros [] ?; reflexivity).
  rewrite (chain_value props_set rp_reset_value (fun c => match c with with_props_reset_value v => Some v | _ => None end)) in E by (intros [] ?; reflexivity).
  rewrite (chain_value props_set rp_reset_mask (fun c => match c with with_props_reset_mask v => Some v | _ => None end)) in E by (intros [] ?; reflexivity).
  rewrite E. split.
  - intros [-> H]. cbn. both; auto.
  - intros [H V]. each. destruct x; cbn in *; subst. both; auto.
Qed.
Ltac swapped := intros c c' b H; destruct c, c'; try reflexivity; exfalso; apply H; reflexivity.
Lemma props_swap : forall c c' (b : reg_props), props_setter c <> props_setter c' -> props_set c (props_set c' b) = props_set c' (props_set c b).
Proof.
  swapped.
Qed.
Lemma value_swap : forall c c' (b : ev_builder), value_setter c <> value_setter c' -> value_set c (value_set c' b) = value_set c' (value_set c b).
Proof.
  swapped.
Qed.
Lemma values_swap : forall c c' (b : evs_builder), values_setter c <> values_setter c' -> values_set c (values_set c' b) = values_set c' (values_set c b).
Proof.
  swapped.
Qed.
Lemma dim_swap : forall c c' (b : de_builder), dim_setter c <> dim_setter c' -> dim_set c (dim_set c' b) = dim_set c' (dim_set c b).
Proof.
  swapped.
Qed.
Lemma field_swap : forall c c' (b : field_builder), field_apart c c' -> field_set c (field_set c' b) = field_set c' (field_set c b).
Proof.
  intros c c' b (H & H1). destruct c, c'; try reflexivity; try (exfalso; apply H1; cbn; auto; fail); try (exfalso; now apply H).
  all: cbn; unfold fb_set_bit_offset, fb_set_bit_width; cbn; repeat match goal with |- context [match ?o with Some _ => _ | None => _ end] => destruct o end; reflexivity.
Qed.
Lemma register_swap : forall c c' (b : register_builder), register_apart c c' -> register_set c (register_set c' b) = register_set c' (register_set c b).
Proof.
  intros c c' b (H & H1 & H2). destruct c, c'; try reflexivity; exfalso; try (now apply H); first [now apply H1; [reflexivity|cbn; auto]|now apply H2; [reflexivity|cbn; auto]].
Qed.
Lemma cluster_swap : forall c c' (b : cluster_builder), cluster_setter c <> cluster_setter c' -> cluster_set c (cluster_set c' b) = cluster_set c' (cluster_set c b).
Proof.
  swapped.
Qed.
Lemma block_swap : forall c c' (b : ab_builder), block_setter c <> block_setter c' -> block_set c (block_set c' b) = block_set c' (block_set c b).
Proof.
  swapped.
Qed.
Lemma interrupt_swap : forall c c' (b : it_builder), interrupt_setter c <> interrupt_setter c' -> interrupt_set c (interrupt_set c' b) = interrupt_set c' (interrupt_set c b).
Proof.
  swapped.
Qed.
Lemma peripheral_swap : forall c c' (b : peripheral_builder), peripheral_setter c <> peripheral_setter c' -> peripheral_set c (peripheral_set c' b) = peripheral_set c' (peripheral_set c b).
Proof.
  swapped.
Qed.
Lemma cpu_swap : forall c c' (b : cpu_builder), cpu_setter c <> cpu_setter c' -> cpu_set c (cpu_set c' b) = cpu_set c' (cpu_set c b).
Proof.
  swapped.
Qed.
Lemma device_swap : forall c c' (b : device_builder), device_setter c <> device_setter c' -> device_set c (device_set c' b) = device_set c' (device_set c b).
Proof.
  swapped.
Qed.
