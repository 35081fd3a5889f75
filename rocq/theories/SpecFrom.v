(** Vocabulary for C83: the calls that give every attribute of an element. *)
From Verif Require Import Base Types Setters.

Definition value_given (x : enumerated_value) : list value_call :=
  [with_value_name (ev_name x);
   with_value_description (ev_description x);
   with_value_value (ev_value x);
   with_value_is_default (ev_is_default x)].
Definition values_given (x : enumerated_values) : list values_call :=
  [with_values_name (evs_name x);
   with_values_usage (evs_usage x);
   with_values_derived_from (evs_derived_from x);
   with_values_values (evs_values x)].
Definition dim_given (x : dim_element) : list dim_call :=
  [with_dim_dim (de_dim x);
   with_dim_dim_increment (de_increment x);
   with_dim_dim_index (de_index x);
   with_dim_dim_name (de_name x);
   with_dim_dim_array_index (de_array_index x)].
Definition field_given (x : field_info) : list field_call :=
  [with_field_name (f_name x);
   with_field_description (f_description x);
   with_field_bit_range (f_bit_range x);
   with_field_access (f_access x);
   with_field_modified_write_values (f_mwv x);
   with_field_write_constraint (f_write_constraint x);
   with_field_read_action (f_read_action x);
   with_field_enumerated_values (f_enumerated_values x);
   with_field_derived_from (f_derived_from x)].
Definition register_given (x : register_info) : list register_call :=
  [with_register_name (r_name x);
   with_register_display_name (r_display_name x);
   with_register_description (r_description x);
   with_register_alternate_group (r_alternate_group x);
   with_register_alternate_register (r_alternate_register x);
   with_register_address_offset (r_address_offset x);
   with_register_properties (r_properties x);
   with_register_datatype (r_datatype x);
   with_register_modified_write_values (r_mwv x);
   with_register_write_constraint (r_write_constraint x);
   with_register_read_action (r_read_action x);
   with_register_fields (r_fields x);
   with_register_derived_from (r_derived_from x)].
Definition cluster_given (x : cluster_info) : list cluster_call :=
  [with_cluster_name (c_name x);
   with_cluster_description (c_description x);
   with_cluster_alternate_cluster (c_alternate_cluster x);
   with_cluster_header_struct_name (c_header_struct_name x);
   with_cluster_address_offset (c_address_offset x);
   with_cluster_default_register_properties (c_default_properties x);
   with_cluster_children (c_children x);
   with_cluster_derived_from (c_derived_from x)].
Definition block_given (x : address_block) : list block_call :=
  [with_block_offset (ab_offset x);
   with_block_size (ab_size x);
   with_block_usage (ab_use x);
   with_block_protection (ab_protection x)].
Definition interrupt_given (x : interrupt) : list interrupt_call :=
  [with_interrupt_name (it_name x);
   with_interrupt_description (it_description x);
   with_interrupt_value (it_value x)].
Definition peripheral_given (x : peripheral_info) : list peripheral_call :=
  [with_peripheral_name (p_name x);
   with_peripheral_display_name (p_display_name x);
   with_peripheral_version (p_version x);
   with_peripheral_description (p_description x);
   with_peripheral_alternate_peripheral (p_alternate_peripheral x);
   with_peripheral_group_name (p_group_name x);
   with_peripheral_prepend_to_name (p_prepend_to_name x);
   with_peripheral_append_to_name (p_append_to_name x);
   with_peripheral_header_struct_name (p_header_struct_name x);
   with_peripheral_base_address (p_base_address x);
   with_peripheral_default_register_properties (p_default_properties x);
   with_peripheral_address_block (p_address_block x);
   with_peripheral_interrupt (Some (p_interrupt x));
   with_peripheral_registers (p_registers x);
   with_peripheral_derived_from (p_derived_from x)].
Definition cpu_given (x : cpu) : list cpu_call :=
  [with_cpu_name (cpu_name x);
   with_cpu_revision (cpu_revision x);
   with_cpu_endian (cpu_endian x);
   with_cpu_mpu_present (cpu_mpu_present x);
   with_cpu_fpu_present (cpu_fpu_present x);
   with_cpu_fpu_double_precision (cpu_fpu_double_precision x);
   with_cpu_dsp_present (cpu_dsp_present x);
   with_cpu_icache_present (cpu_icache_present x);
   with_cpu_dcache_present (cpu_dcache_present x);
   with_cpu_itcm_present (cpu_itcm_present x);
   with_cpu_dtcm_present (cpu_dtcm_present x);
   with_cpu_vtor_present (cpu_vtor_present x);
   with_cpu_nvic_priority_bits (cpu_nvic_priority_bits x);
   with_cpu_has_vendor_systick (cpu_has_vendor_systick x);
   with_cpu_device_num_interrupts (cpu_device_num_interrupts x);
   with_cpu_sau_num_regions (cpu_sau_num_regions x)].
Definition device_given (x : device) : list device_call :=
  [with_device_vendor (d_vendor x);
   with_device_vendor_id (d_vendor_id x);
   with_device_name (d_name x);
   with_device_series (d_series x);
   with_device_version (d_version x);
   with_device_description (d_description x);
   with_device_license_text (d_license_text x);
   with_device_cpu (d_cpu x);
   with_device_header_system_filename (d_header_system_filename x);
   with_device_header_definitions_prefix (d_header_definitions_prefix x);
   with_device_address_unit_bits (d_address_unit_bits x);
   with_device_width (d_width x);
   with_device_default_register_properties (d_default_properties x);
   with_device_peripherals (d_peripherals x);
   with_device_xmlns_xs (d_xmlns_xs x);
   with_device_no_namespace_schema_location (d_no_namespace_schema_location x);
   with_device_schema_version (d_schema_version x)].
