(** C83: what a builder holds after a chain of calls, attribute by attribute. With C23 this says what modifying an
    element with it does; unlike the element built (C83_value ...) it tells a text or list that was never given from one
    given as empty, which modify_from tells apart. The bits of a field are in C24_modify. *)
From Verif Require Import Base Types Validate Builders Setters SpecBuild SpecCalls CallProofs.

Theorem C83_given_value : forall cs,
  evb_name (chain value_set value_new cs) = latest (fun c => match c with with_value_name v => Some v | _ => None end) cs /\
  evb_description (chain value_set value_new cs) = match latest (fun c => match c with with_value_description v => Some v | _ => None end) cs with Some v => v | None => None end /\
  evb_value (chain value_set value_new cs) = match latest (fun c => match c with with_value_value v => Some v | _ => None end) cs with Some v => v | None => None end /\
  evb_is_default (chain value_set value_new cs) = match latest (fun c => match c with with_value_is_default v => Some v | _ => None end) cs with Some v => v | None => None end.
Proof. exact value_calls. Qed.
Print Assumptions C83_given_value.
Theorem C83_given_values : forall cs,
  evsb_name (chain values_set values_new cs) = match latest (fun c => match c with with_values_name v => Some v | _ => None end) cs with Some v => v | None => None end /\
  evsb_usage (chain values_set values_new cs) = match latest (fun c => match c with with_values_usage v => Some v | _ => None end) cs with Some v => v | None => None end /\
  evsb_derived_from (chain values_set values_new cs) = match latest (fun c => match c with with_values_derived_from v => Some v | _ => None end) cs with Some v => v | None => None end /\
  evsb_values (chain values_set values_new cs) = latest (fun c => match c with with_values_values v => Some v | _ => None end) cs.
Proof. exact values_calls. Qed.
Print Assumptions C83_given_values.
Theorem C83_given_dim : forall cs,
  deb_dim (chain dim_set dim_new cs) = latest (fun c => match c with with_dim_dim v => Some v | _ => None end) cs /\
  deb_increment (chain dim_set dim_new cs) = latest (fun c => match c with with_dim_dim_increment v => Some v | _ => None end) cs /\
  deb_index (chain dim_set dim_new cs) = match latest (fun c => match c with with_dim_dim_index v => Some v | _ => None end) cs with Some v => v | None => None end /\
  deb_name (chain dim_set dim_new cs) = match latest (fun c => match c with with_dim_dim_name v => Some v | _ => None end) cs with Some v => v | None => None end /\
  deb_array_index (chain dim_set dim_new cs) = match latest (fun c => match c with with_dim_dim_array_index v => Some v | _ => None end) cs with Some v => v | None => None end.
Proof. exact dim_calls. Qed.
Print Assumptions C83_given_dim.
Theorem C83_given_field : forall cs,
  fb_name (chain field_set field_new cs) = latest (fun c => match c with with_field_name v => Some v | _ => None end) cs /\
  fb_description (chain field_set field_new cs) = match latest (fun c => match c with with_field_description v => Some v | _ => None end) cs with Some v => v | None => None end /\
  fb_access (chain field_set field_new cs) = match latest (fun c => match c with with_field_access v => Some v | _ => None end) cs with Some v => v | None => None end /\
  fb_mwv (chain field_set field_new cs) = match latest (fun c => match c with with_field_modified_write_values v => Some v | _ => None end) cs with Some v => v | None => None end /\
  fb_write_constraint (chain field_set field_new cs) = match latest (fun c => match c with with_field_write_constraint v => Some v | _ => None end) cs with Some v => v | None => None end /\
  fb_read_action (chain field_set field_new cs) = match latest (fun c => match c with with_field_read_action v => Some v | _ => None end) cs with Some v => v | None => None end /\
  fb_enumerated_values (chain field_set field_new cs) = latest (fun c => match c with with_field_enumerated_values v => Some v | _ => None end) cs /\
  fb_derived_from (chain field_set field_new cs) = match latest (fun c => match c with with_field_derived_from v => Some v | _ => None end) cs with Some v => v | None => None end.
Proof. exact field_calls. Qed.
Print Assumptions C83_given_field.
Theorem C83_given_register : forall cs,
  rb_name (chain register_set register_new cs) = latest (fun c => match c with with_register_name v => Some v | _ => None end) cs /\
  rb_display_name (chain register_set register_new cs) = match latest (fun c => match c with with_register_display_name v => Some v | _ => None end) cs with Some v => v | None => None end /\
  rb_description (chain register_set register_new cs) = match latest (fun c => match c with with_register_description v => Some v | _ => None end) cs with Some v => v | None => None end /\
  rb_alternate_group (chain register_set register_new cs) = match latest (fun c => match c with with_register_alternate_group v => Some v | _ => None end) cs with Some v => v | None => None end /\
  rb_alternate_register (chain register_set register_new cs) = match latest (fun c => match c with with_register_alternate_register v => Some v | _ => None end) cs with Some v => v | None => None end /\
  rb_address_offset (chain register_set register_new cs) = latest (fun c => match c with with_register_address_offset v => Some v | _ => None end) cs /\
  rp_size (rb_properties (chain register_set register_new cs)) = match latest (fun c => match c with with_register_properties p => Some (rp_size p) | with_register_size v => Some v | _ => None end) cs with Some v => v | None => None end /\
  rp_access (rb_properties (chain register_set register_new cs)) = match latest (fun c => match c with with_register_properties p => Some (rp_access p) | with_register_access v => Some v | _ => None end) cs with Some v => v | None => None end /\
  rp_protection (rb_properties (chain register_set register_new cs)) = match latest (fun c => match c with with_register_properties p => Some (rp_protection p) | _ => None end) cs with Some v => v | None => None end /\
  rp_reset_value (rb_properties (chain register_set register_new cs)) = match latest (fun c => match c with with_register_properties p => Some (rp_reset_value p) | with_register_reset_value v => Some v | _ => None end) cs with Some v => v | None => None end /\
  rp_reset_mask (rb_properties (chain register_set register_new cs)) = match latest (fun c => match c with with_register_properties p => Some (rp_reset_mask p) | with_register_reset_mask v => Some v | _ => None end) cs with Some v => v | None => None end /\
  rb_datatype (chain register_set register_new cs) = match latest (fun c => match c with with_register_datatype v => Some v | _ => None end) cs with Some v => v | None => None end /\
  rb_mwv (chain register_set register_new cs) = match latest (fun c => match c with with_register_modified_write_values v => Some v | _ => None end) cs with Some v => v | None => None end /\
  rb_write_constraint (chain register_set register_new cs) = match latest (fun c => match c with with_register_write_constraint v => Some v | _ => None end) cs with Some v => v | None => None end /\
  rb_read_action (chain register_set register_new cs) = match latest (fun c => match c with with_register_read_action v => Some v | _ => None end) cs with Some v => v | None => None end /\
  rb_fields (chain register_set register_new cs) = match latest (fun c => match c with with_register_fields v => Some v | _ => None end) cs with Some v => v | None => None end /\
  rb_derived_from (chain register_set register_new cs) = match latest (fun c => match c with with_register_derived_from v => Some v | _ => None end) cs with Some v => v | None => None end.
Proof. exact register_calls. Qed.
Print Assumptions C83_given_register.
Theorem C83_given_cluster : forall cs,
  cb_name (chain cluster_set cluster_new cs) = latest (fun c => match c with with_cluster_name v => Some v | _ => None end) cs /\
  cb_description (chain cluster_set cluster_new cs) = match latest (fun c => match c with with_cluster_description v => Some v | _ => None end) cs with Some v => v | None => None end /\
  cb_alternate_cluster (chain cluster_set cluster_new cs) = match latest (fun c => match c with with_cluster_alternate_cluster v => Some v | _ => None end) cs with Some v => v | None => None end /\
  cb_header_struct_name (chain cluster_set cluster_new cs) = match latest (fun c => match c with with_cluster_header_struct_name v => Some v | _ => None end) cs with Some v => v | None => None end /\
  cb_address_offset (chain cluster_set cluster_new cs) = latest (fun c => match c with with_cluster_address_offset v => Some v | _ => None end) cs /\
  cb_default_properties (chain cluster_set cluster_new cs) = match latest (fun c => match c with with_cluster_default_register_properties v => Some v | _ => None end) cs with Some v => v | None => rp_default end /\
  cb_children (chain cluster_set cluster_new cs) = latest (fun c => match c with with_cluster_children v => Some v | _ => None end) cs /\
  cb_derived_from (chain cluster_set cluster_new cs) = match latest (fun c => match c with with_cluster_derived_from v => Some v | _ => None end) cs with Some v => v | None => None end.
Proof. exact cluster_calls. Qed.
Print Assumptions C83_given_cluster.
Theorem C83_given_block : forall cs,
  abb_offset (chain block_set block_new cs) = latest (fun c => match c with with_block_offset v => Some v | _ => None end) cs /\
  abb_size (chain block_set block_new cs) = latest (fun c => match c with with_block_size v => Some v | _ => None end) cs /\
  abb_use (chain block_set block_new cs) = latest (fun c => match c with with_block_usage v => Some v | _ => None end) cs /\
  abb_protection (chain block_set block_new cs) = match latest (fun c => match c with with_block_protection v => Some v | _ => None end) cs with Some v => v | None => None end.
Proof. exact block_calls. Qed.
Print Assumptions C83_given_block.
Theorem C83_given_interrupt : forall cs,
  itb_name (chain interrupt_set interrupt_new cs) = latest (fun c => match c with with_interrupt_name v => Some v | _ => None end) cs /\
  itb_description (chain interrupt_set interrupt_new cs) = match latest (fun c => match c with with_interrupt_description v => Some v | _ => None end) cs with Some v => v | None => None end /\
  itb_value (chain interrupt_set interrupt_new cs) = latest (fun c => match c with with_interrupt_value v => Some v | _ => None end) cs.
Proof. exact interrupt_calls. Qed.
Print Assumptions C83_given_interrupt.
Theorem C83_given_peripheral : forall cs,
  pb_name (chain peripheral_set peripheral_new cs) = latest (fun c => match c with with_peripheral_name v => Some v | _ => None end) cs /\
  pb_display_name (chain peripheral_set peripheral_new cs) = match latest (fun c => match c with with_peripheral_display_name v => Some v | _ => None end) cs with Some v => v | None => None end /\
  pb_version (chain peripheral_set peripheral_new cs) = match latest (fun c => match c with with_peripheral_version v => Some v | _ => None end) cs with Some v => v | None => None end /\
  pb_description (chain peripheral_set peripheral_new cs) = match latest (fun c => match c with with_peripheral_description v => Some v | _ => None end) cs with Some v => v | None => None end /\
  pb_alternate_peripheral (chain peripheral_set peripheral_new cs) = match latest (fun c => match c with with_peripheral_alternate_peripheral v => Some v | _ => None end) cs with Some v => v | None => None end /\
  pb_group_name (chain peripheral_set peripheral_new cs) = match latest (fun c => match c with with_peripheral_group_name v => Some v | _ => None end) cs with Some v => v | None => None end /\
  pb_prepend_to_name (chain peripheral_set peripheral_new cs) = match latest (fun c => match c with with_peripheral_prepend_to_name v => Some v | _ => None end) cs with Some v => v | None => None end /\
  pb_append_to_name (chain peripheral_set peripheral_new cs) = match latest (fun c => match c with with_peripheral_append_to_name v => Some v | _ => None end) cs with Some v => v | None => None end /\
  pb_header_struct_name (chain peripheral_set peripheral_new cs) = match latest (fun c => match c with with_peripheral_header_struct_name v => Some v | _ => None end) cs with Some v => v | None => None end /\
  pb_base_address (chain peripheral_set peripheral_new cs) = latest (fun c => match c with with_peripheral_base_address v => Some v | _ => None end) cs /\
  pb_default_properties (chain peripheral_set peripheral_new cs) = match latest (fun c => match c with with_peripheral_default_register_properties v => Some v | _ => None end) cs with Some v => v | None => rp_default end /\
  pb_address_block (chain peripheral_set peripheral_new cs) = match latest (fun c => match c with with_peripheral_address_block v => Some v | _ => None end) cs with Some v => v | None => None end /\
  pb_interrupt (chain peripheral_set peripheral_new cs) = match latest (fun c => match c with with_peripheral_interrupt v => Some v | _ => None end) cs with Some v => v | None => None end /\
  pb_registers (chain peripheral_set peripheral_new cs) = match latest (fun c => match c with with_peripheral_registers v => Some v | _ => None end) cs with Some v => v | None => None end /\
  pb_derived_from (chain peripheral_set peripheral_new cs) = match latest (fun c => match c with with_peripheral_derived_from v => Some v | _ => None end) cs with Some v => v | None => None end.
Proof. exact peripheral_calls. Qed.
Print Assumptions C83_given_peripheral.
Theorem C83_given_cpu : forall cs,
  cpub_name (chain cpu_set cpu_new cs) = latest (fun c => match c with with_cpu_name v => Some v | _ => None end) cs /\
  cpub_revision (chain cpu_set cpu_new cs) = latest (fun c => match c with with_cpu_revision v => Some v | _ => None end) cs /\
  cpub_endian (chain cpu_set cpu_new cs) = latest (fun c => match c with with_cpu_endian v => Some v | _ => None end) cs /\
  cpub_mpu_present (chain cpu_set cpu_new cs) = latest (fun c => match c with with_cpu_mpu_present v => Some v | _ => None end) cs /\
  cpub_fpu_present (chain cpu_set cpu_new cs) = latest (fun c => match c with with_cpu_fpu_present v => Some v | _ => None end) cs /\
  cpub_fpu_double_precision (chain cpu_set cpu_new cs) = match latest (fun c => match c with with_cpu_fpu_double_precision v => Some v | _ => None end) cs with Some v => v | None => None end /\
  cpub_dsp_present (chain cpu_set cpu_new cs) = match latest (fun c => match c with with_cpu_dsp_present v => Some v | _ => None end) cs with Some v => v | None => None end /\
  cpub_icache_present (chain cpu_set cpu_new cs) = match latest (fun c => match c with with_cpu_icache_present v => Some v | _ => None end) cs with Some v => v | None => None end /\
  cpub_dcache_present (chain cpu_set cpu_new cs) = match latest (fun c => match c with with_cpu_dcache_present v => Some v | _ => None end) cs with Some v => v | None => None end /\
  cpub_itcm_present (chain cpu_set cpu_new cs) = match latest (fun c => match c with with_cpu_itcm_present v => Some v | _ => None end) cs with Some v => v | None => None end /\
  cpub_dtcm_present (chain cpu_set cpu_new cs) = match latest (fun c => match c with with_cpu_dtcm_present v => Some v | _ => None end) cs with Some v => v | None => None end /\
  cpub_vtor_present (chain cpu_set cpu_new cs) = match latest (fun c => match c with with_cpu_vtor_present v => Some v | _ => None end) cs with Some v => v | None => None end /\
  cpub_nvic_priority_bits (chain cpu_set cpu_new cs) = latest (fun c => match c with with_cpu_nvic_priority_bits v => Some v | _ => None end) cs /\
  cpub_has_vendor_systick (chain cpu_set cpu_new cs) = latest (fun c => match c with with_cpu_has_vendor_systick v => Some v | _ => None end) cs /\
  cpub_device_num_interrupts (chain cpu_set cpu_new cs) = match latest (fun c => match c with with_cpu_device_num_interrupts v => Some v | _ => None end) cs with Some v => v | None => None end /\
  cpub_sau_num_regions (chain cpu_set cpu_new cs) = match latest (fun c => match c with with_cpu_sau_num_regions v => Some v | _ => None end) cs with Some v => v | None => None end.
Proof. exact cpu_calls. Qed.
Print Assumptions C83_given_cpu.
Theorem C83_given_device : forall cs,
  db_vendor (chain device_set device_new cs) = match latest (fun c => match c with with_device_vendor v => Some v | _ => None end) cs with Some v => v | None => None end /\
  db_vendor_id (chain device_set device_new cs) = match latest (fun c => match c with with_device_vendor_id v => Some v | _ => None end) cs with Some v => v | None => None end /\
  db_name (chain device_set device_new cs) = latest (fun c => match c with with_device_name v => Some v | _ => None end) cs /\
  db_series (chain device_set device_new cs) = match latest (fun c => match c with with_device_series v => Some v | _ => None end) cs with Some v => v | None => None end /\
  db_version (chain device_set device_new cs) = latest (fun c => match c with with_device_version v => Some v | _ => None end) cs /\
  db_description (chain device_set device_new cs) = latest (fun c => match c with with_device_description v => Some v | _ => None end) cs /\
  db_license_text (chain device_set device_new cs) = match latest (fun c => match c with with_device_license_text v => Some v | _ => None end) cs with Some v => v | None => None end /\
  db_cpu (chain device_set device_new cs) = match latest (fun c => match c with with_device_cpu v => Some v | _ => None end) cs with Some v => v | None => None end /\
  db_header_system_filename (chain device_set device_new cs) = match latest (fun c => match c with with_device_header_system_filename v => Some v | _ => None end) cs with Some v => v | None => None end /\
  db_header_definitions_prefix (chain device_set device_new cs) = match latest (fun c => match c with with_device_header_definitions_prefix v => Some v | _ => None end) cs with Some v => v | None => None end /\
  db_address_unit_bits (chain device_set device_new cs) = latest (fun c => match c with with_device_address_unit_bits v => Some v | _ => None end) cs /\
  db_width (chain device_set device_new cs) = latest (fun c => match c with with_device_width v => Some v | _ => None end) cs /\
  db_default_properties (chain device_set device_new cs) = match latest (fun c => match c with with_device_default_register_properties v => Some v | _ => None end) cs with Some v => v | None => rp_default end /\
  db_peripherals (chain device_set device_new cs) = latest (fun c => match c with with_device_peripherals v => Some v | _ => None end) cs /\
  db_xmlns_xs (chain device_set device_new cs) = latest (fun c => match c with with_device_xmlns_xs v => Some v | _ => None end) cs /\
  db_no_namespace_schema_location (chain device_set device_new cs) = latest (fun c => match c with with_device_no_namespace_schema_location v => Some v | _ => None end) cs /\
  db_schema_version (chain device_set device_new cs) = latest (fun c => match c with with_device_schema_version v => Some v | _ => None end) cs.
Proof. exact device_calls. Qed.
Print Assumptions C83_given_device.

(** A description given as empty is not the same as none given: the first clears the one there is. *)
Example C83_given_example : forall x,
  ev_description (fst (ev_modify x (chain value_set value_new [with_value_description (Some "")]) Weak)) = None /\
  ev_description (fst (ev_modify x (chain value_set value_new [with_value_description (Some ""); with_value_description None]) Weak)) = ev_description x.
Proof. intros x. split; reflexivity. Qed.
