(** Vocabulary for C22-C25 and C51: elements with their empty texts dropped, and
    what it means for a builder to assign an attribute. *)
From Verif Require Import Base Types Builders.

Definition tidy_text (o : option string) : option string :=
  match o with Some EmptyString => None | _ => o end.
Definition tidy_list {A} (o : option (list A)) : option (list A) :=
  match o with Some [] => None | _ => o end.

Definition tidy_value (e : enumerated_value) : enumerated_value :=
  EnumeratedValue (ev_name e) (tidy_text (ev_description e)) (ev_value e) (ev_is_default e).
Definition tidy_values (e : enumerated_values) : enumerated_values :=
  EnumeratedValues (tidy_text (evs_name e)) (evs_usage e) (evs_derived_from e) (evs_values e).
Definition tidy_dim (d : dim_element) : dim_element :=
  DimElement (de_dim d) (de_increment d) (tidy_list (de_index d)) (tidy_text (de_name d)) (de_array_index d).
Definition tidy_field (f : field_info) : field_info :=
  FieldInfo (f_name f) (tidy_text (f_description f)) (f_bit_range f) (f_access f) (f_mwv f)
    (f_write_constraint f) (f_read_action f) (f_enumerated_values f) (f_derived_from f).
Definition tidy_cluster (c : cluster_info) : cluster_info :=
  ClusterInfo (c_name c) (tidy_text (c_description c)) (tidy_text (c_alternate_cluster c))
    (tidy_text (c_header_struct_name c)) (c_address_offset c) (c_default_properties c) (c_children c)
    (c_derived_from c).
Definition tidy_peripheral (p : peripheral_info) : peripheral_info :=
  PeripheralInfo (p_name p) (tidy_text (p_display_name p)) (tidy_text (p_version p))
    (tidy_text (p_description p)) (tidy_text (p_alternate_peripheral p)) (tidy_text (p_group_name p))
    (tidy_text (p_prepend_to_name p)) (tidy_text (p_append_to_name p)) (tidy_text (p_header_struct_name p))
    (p_base_address p) (p_default_properties p) (p_address_block p) (p_interrupt p) (p_registers p)
    (p_derived_from p).

(** ** Assignments by a builder: what is not set stays, what is set is taken over
    (for optional texts and lists the empty one clears the attribute). *)
Definition assigned {A} (b : option A) (old new : A) : Prop :=
  (b = None -> new = old) /\ (forall v, b = Some v -> new = v).
Definition assigned_opt {A} (b old new : option A) : Prop :=
  (b = None -> new = old) /\ (forall v, b = Some v -> new = Some v).
Definition assigned_text (b old new : option string) : Prop :=
  (b = None -> new = old) /\ (forall v, b = Some v -> new = tidy_text (Some v)).
Definition assigned_list {A} (b old new : option (list A)) : Prop :=
  (b = None -> new = old) /\ (forall v, b = Some v -> new = tidy_list (Some v)).
(** Only the first half: not set, not touched. *)
Definition kept {A B} (b : option B) (old new : A) : Prop := b = None -> new = old.

Definition props_modified (x b x' : reg_props) : Prop :=
  assigned_opt (rp_size b) (rp_size x) (rp_size x') /\
  assigned_opt (rp_access b) (rp_access x) (rp_access x') /\
  assigned_opt (rp_protection b) (rp_protection x) (rp_protection x') /\
  assigned_opt (rp_reset_value b) (rp_reset_value x) (rp_reset_value x') /\
  assigned_opt (rp_reset_mask b) (rp_reset_mask x) (rp_reset_mask x').
Definition value_modified (x : enumerated_value) (b : ev_builder) (x' : enumerated_value) : Prop :=
  assigned (evb_name b) (ev_name x) (ev_name x') /\
  assigned_text (evb_description b) (ev_description x) (ev_description x') /\
  assigned_opt (evb_value b) (ev_value x) (ev_value x') /\
  assigned_opt (evb_is_default b) (ev_is_default x) (ev_is_default x').
Definition values_modified (x : enumerated_values) (b : evs_builder) (x' : enumerated_values) : Prop :=
  assigned_text (evsb_name b) (evs_name x) (evs_name x') /\
  assigned_opt (evsb_usage b) (evs_usage x) (evs_usage x') /\
  assigned_opt (evsb_derived_from b) (evs_derived_from x) (evs_derived_from x') /\
  assigned (evsb_values b) (evs_values x) (evs_values x').
Definition dim_modified (x : dim_element) (b : de_builder) (x' : dim_element) : Prop :=
  assigned (deb_dim b) (de_dim x) (de_dim x') /\
  assigned (deb_increment b) (de_increment x) (de_increment x') /\
  assigned_list (deb_index b) (de_index x) (de_index x') /\
  assigned_text (deb_name b) (de_name x) (de_name x') /\
  assigned_opt (deb_array_index b) (de_array_index x) (de_array_index x').
(** The bits of a field: first the whole range, then offset and width separately. *)
Definition bits_modified (x : bit_range) (b : field_builder) (x' : bit_range) : Prop :=
  exists r, assigned (fb_bit_range b) x r /\ br_type x' = br_type r /\
    assigned (fb_bit_offset b) (br_offset r) (br_offset x') /\
    assigned (fb_bit_width b) (br_width r) (br_width x').
Definition field_modified (x : field_info) (b : field_builder) (x' : field_info) : Prop :=
  assigned (fb_name b) (f_name x) (f_name x') /\
  assigned_text (fb_description b) (f_description x) (f_description x') /\
  bits_modified (f_bit_range x) b (f_bit_range x') /\
  assigned_opt (fb_access b) (f_access x) (f_access x') /\
  match fb_derived_from b with
  | None =>
      assigned_opt (fb_mwv b) (f_mwv x) (f_mwv x') /\
      assigned_opt (fb_write_constraint b) (f_write_constraint x) (f_write_constraint x') /\
      assigned_opt (fb_read_action b) (f_read_action x) (f_read_action x') /\
      assigned (fb_enumerated_values b) (f_enumerated_values x) (f_enumerated_values x') /\
      f_derived_from x' = f_derived_from x
  | Some d =>
      f_mwv x' = None /\ f_write_constraint x' = None /\ f_read_action x' = f_read_action x /\
      f_enumerated_values x' = [] /\ f_derived_from x' = Some d
  end.
Definition register_modified (x : register_info) (b : register_builder) (x' : register_info) : Prop :=
  assigned (rb_name b) (r_name x) (r_name x') /\
  assigned_text (rb_display_name b) (r_display_name x) (r_display_name x') /\
  assigned_text (rb_description b) (r_description x) (r_description x') /\
  assigned_text (rb_alternate_group b) (r_alternate_group x) (r_alternate_group x') /\
  assigned_text (rb_alternate_register b) (r_alternate_register x) (r_alternate_register x') /\
  assigned (rb_address_offset b) (r_address_offset x) (r_address_offset x') /\
  match rb_derived_from b with
  | None =>
      props_modified (r_properties x) (rb_properties b) (r_properties x') /\
      assigned_opt (rb_datatype b) (r_datatype x) (r_datatype x') /\
      assigned_opt (rb_mwv b) (r_mwv x) (r_mwv x') /\
      assigned_opt (rb_write_constraint b) (r_write_constraint x) (r_write_constraint x') /\
      assigned_opt (rb_read_action b) (r_read_action x) (r_read_action x') /\
      assigned_list (rb_fields b) (r_fields x) (r_fields x') /\
      r_derived_from x' = r_derived_from x
  | Some d =>
      r_properties x' = RegProps None None None None None /\ r_datatype x' = None /\ r_mwv x' = None /\
      r_write_constraint x' = None /\ r_read_action x' = r_read_action x /\ r_fields x' = None /\
      r_derived_from x' = Some d
  end.
Definition cluster_modified (x : cluster_info) (b : cluster_builder) (x' : cluster_info) : Prop :=
  assigned (cb_name b) (c_name x) (c_name x') /\
  assigned_text (cb_description b) (c_description x) (c_description x') /\
  assigned_text (cb_alternate_cluster b) (c_alternate_cluster x) (c_alternate_cluster x') /\
  assigned_text (cb_header_struct_name b) (c_header_struct_name x) (c_header_struct_name x') /\
  assigned (cb_address_offset b) (c_address_offset x) (c_address_offset x') /\
  match cb_derived_from b with
  | None =>
      props_modified (c_default_properties x) (cb_default_properties b) (c_default_properties x') /\
      assigned (cb_children b) (c_children x) (c_children x') /\
      c_derived_from x' = c_derived_from x
  | Some d =>
      c_default_properties x' = RegProps None None None None None /\ c_children x' = [] /\
      c_derived_from x' = Some d
  end.
Definition peripheral_modified (x : peripheral_info) (b : peripheral_builder) (x' : peripheral_info) : Prop :=
  assigned (pb_name b) (p_name x) (p_name x') /\
  assigned_text (pb_display_name b) (p_display_name x) (p_display_name x') /\
  assigned_text (pb_version b) (p_version x) (p_version x') /\
  assigned_text (pb_description b) (p_description x) (p_description x') /\
  assigned_text (pb_alternate_peripheral b) (p_alternate_peripheral x) (p_alternate_peripheral x') /\
  assigned_text (pb_group_name b) (p_group_name x) (p_group_name x') /\
  assigned_text (pb_prepend_to_name b) (p_prepend_to_name x) (p_prepend_to_name x') /\
  assigned_text (pb_append_to_name b) (p_append_to_name x) (p_append_to_name x') /\
  assigned_text (pb_header_struct_name b) (p_header_struct_name x) (p_header_struct_name x') /\
  assigned (pb_base_address b) (p_base_address x) (p_base_address x') /\
  assigned (pb_interrupt b) (p_interrupt x) (p_interrupt x') /\
  match pb_derived_from b with
  | None =>
      props_modified (p_default_properties x) (pb_default_properties b) (p_default_properties x') /\
      assigned_opt (pb_address_block b) (p_address_block x) (p_address_block x') /\
      assigned_list (pb_registers b) (p_registers x) (p_registers x') /\
      p_derived_from x' = p_derived_from x
  | Some d =>
      p_default_properties x' = RegProps None None None None None /\ p_address_block x' = None /\
      p_registers x' = None /\ p_derived_from x' = Some d
  end.
Definition block_modified (x : address_block) (b : ab_builder) (x' : address_block) : Prop :=
  assigned (abb_offset b) (ab_offset x) (ab_offset x') /\
  assigned (abb_size b) (ab_size x) (ab_size x') /\
  assigned (abb_use b) (ab_use x) (ab_use x') /\
  assigned_opt (abb_protection b) (ab_protection x) (ab_protection x').
Definition interrupt_modified (x : interrupt) (b : it_builder) (x' : interrupt) : Prop :=
  assigned (itb_name b) (it_name x) (it_name x') /\
  assigned_opt (itb_description b) (it_description x) (it_description x') /\
  assigned (itb_value b) (it_value x) (it_value x').
Definition cpu_modified (x : cpu) (b : cpu_builder) (x' : cpu) : Prop :=
  assigned (cpub_name b) (cpu_name x) (cpu_name x') /\
  assigned (cpub_revision b) (cpu_revision x) (cpu_revision x') /\
  assigned (cpub_endian b) (cpu_endian x) (cpu_endian x') /\
  assigned (cpub_mpu_present b) (cpu_mpu_present x) (cpu_mpu_present x') /\
  assigned (cpub_fpu_present b) (cpu_fpu_present x) (cpu_fpu_present x') /\
  assigned_opt (cpub_fpu_double_precision b) (cpu_fpu_double_precision x) (cpu_fpu_double_precision x') /\
  assigned_opt (cpub_dsp_present b) (cpu_dsp_present x) (cpu_dsp_present x') /\
  assigned_opt (cpub_icache_present b) (cpu_icache_present x) (cpu_icache_present x') /\
  assigned_opt (cpub_dcache_present b) (cpu_dcache_present x) (cpu_dcache_present x') /\
  assigned_opt (cpub_itcm_present b) (cpu_itcm_present x) (cpu_itcm_present x') /\
  assigned_opt (cpub_dtcm_present b) (cpu_dtcm_present x) (cpu_dtcm_present x') /\
  assigned_opt (cpub_vtor_present b) (cpu_vtor_present x) (cpu_vtor_present x') /\
  assigned (cpub_nvic_priority_bits b) (cpu_nvic_priority_bits x) (cpu_nvic_priority_bits x') /\
  assigned (cpub_has_vendor_systick b) (cpu_has_vendor_systick x) (cpu_has_vendor_systick x') /\
  assigned_opt (cpub_device_num_interrupts b) (cpu_device_num_interrupts x) (cpu_device_num_interrupts x') /\
  assigned_opt (cpub_sau_num_regions b) (cpu_sau_num_regions x) (cpu_sau_num_regions x').
Definition device_modified (x : device) (b : device_builder) (x' : device) : Prop :=
  assigned_text (db_vendor b) (d_vendor x) (d_vendor x') /\
  assigned_text (db_vendor_id b) (d_vendor_id x) (d_vendor_id x') /\
  assigned (db_name b) (d_name x) (d_name x') /\
  assigned_text (db_series b) (d_series x) (d_series x') /\
  assigned (db_version b) (d_version x) (d_version x') /\
  assigned (db_description b) (d_description x) (d_description x') /\
  assigned_text (db_license_text b) (d_license_text x) (d_license_text x') /\
  assigned_opt (db_cpu b) (d_cpu x) (d_cpu x') /\
  assigned_text (db_header_system_filename b) (d_header_system_filename x) (d_header_system_filename x') /\
  assigned_text (db_header_definitions_prefix b) (d_header_definitions_prefix x) (d_header_definitions_prefix x') /\
  assigned (db_address_unit_bits b) (d_address_unit_bits x) (d_address_unit_bits x') /\
  assigned (db_width b) (d_width x) (d_width x') /\
  props_modified (d_default_properties x) (db_default_properties b) (d_default_properties x') /\
  assigned (db_peripherals b) (d_peripherals x) (d_peripherals x') /\
  assigned (db_xmlns_xs b) (d_xmlns_xs x) (d_xmlns_xs x') /\
  assigned (db_no_namespace_schema_location b) (d_no_namespace_schema_location x) (d_no_namespace_schema_location x') /\
  assigned (db_schema_version b) (d_schema_version x) (d_schema_version x').

(** ** Frames that hold even when modify_from fails half-way. *)
Definition props_kept (x b x' : reg_props) : Prop :=
  kept (rp_size b) (rp_size x) (rp_size x') /\ kept (rp_access b) (rp_access x) (rp_access x') /\
  kept (rp_protection b) (rp_protection x) (rp_protection x') /\
  kept (rp_reset_value b) (rp_reset_value x) (rp_reset_value x') /\
  kept (rp_reset_mask b) (rp_reset_mask x) (rp_reset_mask x').
Definition register_kept (x : register_info) (b : register_builder) (x' : register_info) : Prop :=
  kept (rb_name b) (r_name x) (r_name x') /\ kept (rb_display_name b) (r_display_name x) (r_display_name x') /\
  kept (rb_description b) (r_description x) (r_description x') /\
  kept (rb_alternate_group b) (r_alternate_group x) (r_alternate_group x') /\
  kept (rb_alternate_register b) (r_alternate_register x) (r_alternate_register x') /\
  kept (rb_address_offset b) (r_address_offset x) (r_address_offset x') /\
  (rb_derived_from b = None ->
    props_kept (r_properties x) (rb_properties b) (r_properties x') /\
    kept (rb_datatype b) (r_datatype x) (r_datatype x') /\ kept (rb_mwv b) (r_mwv x) (r_mwv x') /\
    kept (rb_write_constraint b) (r_write_constraint x) (r_write_constraint x') /\
    kept (rb_read_action b) (r_read_action x) (r_read_action x') /\
    kept (rb_fields b) (r_fields x) (r_fields x') /\ r_derived_from x' = r_derived_from x).
Definition cluster_kept (x : cluster_info) (b : cluster_builder) (x' : cluster_info) : Prop :=
  kept (cb_name b) (c_name x) (c_name x') /\ kept (cb_description b) (c_description x) (c_description x') /\
  kept (cb_alternate_cluster b) (c_alternate_cluster x) (c_alternate_cluster x') /\
  kept (cb_header_struct_name b) (c_header_struct_name x) (c_header_struct_name x') /\
  kept (cb_address_offset b) (c_address_offset x) (c_address_offset x') /\
  (cb_derived_from b = None ->
    props_kept (c_default_properties x) (cb_default_properties b) (c_default_properties x') /\
    kept (cb_children b) (c_children x) (c_children x') /\ c_derived_from x' = c_derived_from x).
Definition peripheral_kept (x : peripheral_info) (b : peripheral_builder) (x' : peripheral_info) : Prop :=
  kept (pb_name b) (p_name x) (p_name x') /\ kept (pb_display_name b) (p_display_name x) (p_display_name x') /\
  kept (pb_version b) (p_version x) (p_version x') /\
  kept (pb_description b) (p_description x) (p_description x') /\
  kept (pb_alternate_peripheral b) (p_alternate_peripheral x) (p_alternate_peripheral x') /\
  kept (pb_group_name b) (p_group_name x) (p_group_name x') /\
  kept (pb_prepend_to_name b) (p_prepend_to_name x) (p_prepend_to_name x') /\
  kept (pb_append_to_name b) (p_append_to_name x) (p_append_to_name x') /\
  kept (pb_header_struct_name b) (p_header_struct_name x) (p_header_struct_name x') /\
  kept (pb_base_address b) (p_base_address x) (p_base_address x') /\
  kept (pb_interrupt b) (p_interrupt x) (p_interrupt x') /\
  (pb_derived_from b = None ->
    props_kept (p_default_properties x) (pb_default_properties b) (p_default_properties x') /\
    kept (pb_address_block b) (p_address_block x) (p_address_block x') /\
    kept (pb_registers b) (p_registers x) (p_registers x') /\ p_derived_from x' = p_derived_from x).
Definition device_kept (x : device) (b : device_builder) (x' : device) : Prop :=
  kept (db_vendor b) (d_vendor x) (d_vendor x') /\ kept (db_vendor_id b) (d_vendor_id x) (d_vendor_id x') /\
  kept (db_name b) (d_name x) (d_name x') /\ kept (db_series b) (d_series x) (d_series x') /\
  kept (db_version b) (d_version x) (d_version x') /\ kept (db_description b) (d_description x) (d_description x') /\
  kept (db_license_text b) (d_license_text x) (d_license_text x') /\ kept (db_cpu b) (d_cpu x) (d_cpu x') /\
  kept (db_header_system_filename b) (d_header_system_filename x) (d_header_system_filename x') /\
  kept (db_header_definitions_prefix b) (d_header_definitions_prefix x) (d_header_definitions_prefix x') /\
  kept (db_address_unit_bits b) (d_address_unit_bits x) (d_address_unit_bits x') /\
  kept (db_width b) (d_width x) (d_width x') /\
  props_kept (d_default_properties x) (db_default_properties b) (d_default_properties x') /\
  kept (db_peripherals b) (d_peripherals x) (d_peripherals x') /\
  kept (db_xmlns_xs b) (d_xmlns_xs x) (d_xmlns_xs x') /\
  kept (db_no_namespace_schema_location b) (d_no_namespace_schema_location x) (d_no_namespace_schema_location x') /\
  kept (db_schema_version b) (d_schema_version x) (d_schema_version x').
