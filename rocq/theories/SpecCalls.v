(** Vocabulary for C83: what a chain of builder calls asks for, attribute by attribute. *)
From Verif Require Import Base Types Setters SpecValidate SpecBuild.

(** The value of the last call of a chain that sets the attribute [q] looks at. *)
Fixpoint latest {C A} (q : C -> option A) (cs : list C) : option A :=
  match cs with
  | [] => None
  | c :: rest => match latest q rest with Some v => Some v | None => q c end
  end.
(** A mandatory attribute has been given ... *)
Definition must {C A} (q : C -> option A) (cs : list C) (x : A) : Prop := latest q cs = Some x.
(** ... one that is optional in the argument is unset when never given ... *)
Definition may {C A} (q : C -> option (option A)) (cs : list C) (x : option A) : Prop :=
  x = match latest q cs with Some v => v | None => None end.
(** ... the empty text or list counting as unset for some of them. *)
Definition may_text {C} (q : C -> option (option string)) (cs : list C) (x : option string) : Prop :=
  x = match latest q cs with Some v => tidy_text v | None => None end.
Definition may_list {C A} (q : C -> option (option (list A))) (cs : list C) (x : option (list A)) : Prop :=
  x = match latest q cs with Some v => tidy_list v | None => None end.
(** ... or no list for the empty one. *)
Definition may_many {C A} (q : C -> option (option (list A))) (cs : list C) (x : list A) : Prop :=
  x = match latest q cs with Some (Some v) => v | _ => [] end.
(** A default when never given, at every level or below Strict only. *)
Definition or_else {C A} (dflt : A) (q : C -> option A) (cs : list C) (x : A) : Prop :=
  x = match latest q cs with Some v => v | None => dflt end.
Definition below_strict {C A} (l : level) (dflt : A) (q : C -> option A) (cs : list C) (x : A) : Prop :=
  latest q cs = Some x \/ (latest q cs = None /\ l <> Strict /\ x = dflt).

Definition props_built (cs : list props_call) (p : reg_props) : Prop :=
  may (fun c => match c with with_props_size v => Some v | _ => None end) cs (rp_size p) /\
  may (fun c => match c with with_props_access v => Some v | _ => None end) cs (rp_access p) /\
  may (fun c => match c with with_props_protection v => Some v | _ => None end) cs (rp_protection p) /\
  may (fun c => match c with with_props_reset_value v => Some v | _ => None end) cs (rp_reset_value p) /\
  may (fun c => match c with with_props_reset_mask v => Some v | _ => None end) cs (rp_reset_mask p).

(** ** The bits of a field. A call of bit_range fixes them. Without one they are fixed by
    the first bit_offset together with the next call of bit_offset or bit_width: the
    former takes the earlier offset for the width (C24). Calls of bit_width before the
    first bit_offset are lost. Once fixed, bit_offset and bit_width replace their part. *)
Inductive bits_fixed : list field_call -> bit_range -> list field_call -> Prop :=
| fixed_range : forall pre r post, bits_fixed (pre ++ with_field_bit_range r :: post) r post
| fixed_width : forall pre o mid w post,
    (forall c, In c pre -> match c with with_field_bit_range _ | with_field_bit_offset _ => False | _ => True end) ->
    (forall c, In c mid -> match c with with_field_bit_range _ | with_field_bit_offset _ | with_field_bit_width _ => False | _ => True end) ->
    bits_fixed (pre ++ with_field_bit_offset o :: mid ++ with_field_bit_width w :: post) (BitRange o w BRT_OffsetWidth) post
| fixed_offset : forall pre o mid o' post,
    (forall c, In c pre -> match c with with_field_bit_range _ | with_field_bit_offset _ => False | _ => True end) ->
    (forall c, In c mid -> match c with with_field_bit_range _ | with_field_bit_offset _ | with_field_bit_width _ => False | _ => True end) ->
    bits_fixed (pre ++ with_field_bit_offset o :: mid ++ with_field_bit_offset o' :: post) (BitRange o' o BRT_OffsetWidth) post.
Definition bits_built (cs : list field_call) (b : bit_range) : Prop :=
  exists r post, bits_fixed cs r post /\
    (forall c, In c post -> match c with with_field_bit_range _ => False | _ => True end) /\
    br_type b = br_type r /\
    or_else (br_offset r) (fun c => match c with with_field_bit_offset v => Some v | _ => None end) post (br_offset b) /\
    or_else (br_width r) (fun c => match c with with_field_bit_width v => Some v | _ => None end) post (br_width b).

Definition value_built (cs : list value_call) (x : enumerated_value) : Prop :=
  must (fun c => match c with with_value_name v => Some v | _ => None end) cs (ev_name x) /\
  may_text (fun c => match c with with_value_description v => Some v | _ => None end) cs (ev_description x) /\
  may (fun c => match c with with_value_value v => Some v | _ => None end) cs (ev_value x) /\
  may (fun c => match c with with_value_is_default v => Some v | _ => None end) cs (ev_is_default x).

Definition values_built (cs : list values_call) (x : enumerated_values) : Prop :=
  may_text (fun c => match c with with_values_name v => Some v | _ => None end) cs (evs_name x) /\
  may (fun c => match c with with_values_usage v => Some v | _ => None end) cs (evs_usage x) /\
  may (fun c => match c with with_values_derived_from v => Some v | _ => None end) cs (evs_derived_from x) /\
  or_else [] (fun c => match c with with_values_values v => Some v | _ => None end) cs (evs_values x).

Definition dim_built (cs : list dim_call) (x : dim_element) : Prop :=
  must (fun c => match c with with_dim_dim v => Some v | _ => None end) cs (de_dim x) /\
  must (fun c => match c with with_dim_dim_increment v => Some v | _ => None end) cs (de_increment x) /\
  may_list (fun c => match c with with_dim_dim_index v => Some v | _ => None end) cs (de_index x) /\
  may_text (fun c => match c with with_dim_dim_name v => Some v | _ => None end) cs (de_name x) /\
  may (fun c => match c with with_dim_dim_array_index v => Some v | _ => None end) cs (de_array_index x).

Definition field_built (cs : list field_call) (x : field_info) : Prop :=
  must (fun c => match c with with_field_name v => Some v | _ => None end) cs (f_name x) /\
  may_text (fun c => match c with with_field_description v => Some v | _ => None end) cs (f_description x) /\
  bits_built cs (f_bit_range x) /\
  may (fun c => match c with with_field_access v => Some v | _ => None end) cs (f_access x) /\
  may (fun c => match c with with_field_modified_write_values v => Some v | _ => None end) cs (f_mwv x) /\
  may (fun c => match c with with_field_write_constraint v => Some v | _ => None end) cs (f_write_constraint x) /\
  may (fun c => match c with with_field_read_action v => Some v | _ => None end) cs (f_read_action x) /\
  or_else [] (fun c => match c with with_field_enumerated_values v => Some v | _ => None end) cs (f_enumerated_values x) /\
  may (fun c => match c with with_field_derived_from v => Some v | _ => None end) cs (f_derived_from x).

Definition register_built (cs : list register_call) (x : register_info) : Prop :=
  must (fun c => match c with with_register_name v => Some v | _ => None end) cs (r_name x) /\
  may (fun c => match c with with_register_display_name v => Some v | _ => None end) cs (r_display_name x) /\
  may (fun c => match c with with_register_description v => Some v | _ => None end) cs (r_description x) /\
  may (fun c => match c with with_register_alternate_group v => Some v | _ => None end) cs (r_alternate_group x) /\
  may (fun c => match c with with_register_alternate_register v => Some v | _ => None end) cs (r_alternate_register x) /\
  must (fun c => match c with with_register_address_offset v => Some v | _ => None end) cs (r_address_offset x) /\
  may (fun c => match c with with_register_properties p => Some (rp_size p) | with_register_size v => Some v | _ => None end) cs (rp_size (r_properties x)) /\
  may (fun c => match c with with_register_properties p => Some (rp_access p) | with_register_access v => Some v | _ => None end) cs (rp_access (r_properties x)) /\
  may (fun c => match c with with_register_properties p => Some (rp_reset_value p) | with_register_reset_value v => Some v | _ => None end) cs (rp_reset_value (r_properties x)) /\
  may (fun c => match c with with_register_properties p => Some (rp_reset_mask p) | with_register_reset_mask v => Some v | _ => None end) cs (rp_reset_mask (r_properties x)) /\
  (* there is no setter for the protection alone *)
  may (fun c => match c with with_register_properties p => Some (rp_protection p) | _ => None end) cs (rp_protection (r_properties x)) /\
  may (fun c => match c with with_register_datatype v => Some v | _ => None end) cs (r_datatype x) /\
  may (fun c => match c with with_register_modified_write_values v => Some v | _ => None end) cs (r_mwv x) /\
  may (fun c => match c with with_register_write_constraint v => Some v | _ => None end) cs (r_write_constraint x) /\
  may (fun c => match c with with_register_read_action v => Some v | _ => None end) cs (r_read_action x) /\
  may (fun c => match c with with_register_fields v => Some v | _ => None end) cs (r_fields x) /\
  may (fun c => match c with with_register_derived_from v => Some v | _ => None end) cs (r_derived_from x).

Definition cluster_built (cs : list cluster_call) (x : cluster_info) : Prop :=
  must (fun c => match c with with_cluster_name v => Some v | _ => None end) cs (c_name x) /\
  may_text (fun c => match c with with_cluster_description v => Some v | _ => None end) cs (c_description x) /\
  may_text (fun c => match c with with_cluster_alternate_cluster v => Some v | _ => None end) cs (c_alternate_cluster x) /\
  may_text (fun c => match c with with_cluster_header_struct_name v => Some v | _ => None end) cs (c_header_struct_name x) /\
  must (fun c => match c with with_cluster_address_offset v => Some v | _ => None end) cs (c_address_offset x) /\
  or_else rp_default (fun c => match c with with_cluster_default_register_properties v => Some v | _ => None end) cs (c_default_properties x) /\
  must (fun c => match c with with_cluster_children v => Some v | _ => None end) cs (c_children x) /\
  may (fun c => match c with with_cluster_derived_from v => Some v | _ => None end) cs (c_derived_from x).

Definition block_built (cs : list block_call) (x : address_block) : Prop :=
  must (fun c => match c with with_block_offset v => Some v | _ => None end) cs (ab_offset x) /\
  must (fun c => match c with with_block_size v => Some v | _ => None end) cs (ab_size x) /\
  must (fun c => match c with with_block_usage v => Some v | _ => None end) cs (ab_use x) /\
  may (fun c => match c with with_block_protection v => Some v | _ => None end) cs (ab_protection x).

Definition interrupt_built (cs : list interrupt_call) (x : interrupt) : Prop :=
  must (fun c => match c with with_interrupt_name v => Some v | _ => None end) cs (it_name x) /\
  may (fun c => match c with with_interrupt_description v => Some v | _ => None end) cs (it_description x) /\
  must (fun c => match c with with_interrupt_value v => Some v | _ => None end) cs (it_value x).

Definition peripheral_built (cs : list peripheral_call) (x : peripheral_info) : Prop :=
  must (fun c => match c with with_peripheral_name v => Some v | _ => None end) cs (p_name x) /\
  may_text (fun c => match c with with_peripheral_display_name v => Some v | _ => None end) cs (p_display_name x) /\
  may_text (fun c => match c with with_peripheral_version v => Some v | _ => None end) cs (p_version x) /\
  may_text (fun c => match c with with_peripheral_description v => Some v | _ => None end) cs (p_description x) /\
  may_text (fun c => match c with with_peripheral_alternate_peripheral v => Some v | _ => None end) cs (p_alternate_peripheral x) /\
  may_text (fun c => match c with with_peripheral_group_name v => Some v | _ => None end) cs (p_group_name x) /\
  may_text (fun c => match c with with_peripheral_prepend_to_name v => Some v | _ => None end) cs (p_prepend_to_name x) /\
  may_text (fun c => match c with with_peripheral_append_to_name v => Some v | _ => None end) cs (p_append_to_name x) /\
  may_text (fun c => match c with with_peripheral_header_struct_name v => Some v | _ => None end) cs (p_header_struct_name x) /\
  must (fun c => match c with with_peripheral_base_address v => Some v | _ => None end) cs (p_base_address x) /\
  or_else rp_default (fun c => match c with with_peripheral_default_register_properties v => Some v | _ => None end) cs (p_default_properties x) /\
  may (fun c => match c with with_peripheral_address_block v => Some v | _ => None end) cs (p_address_block x) /\
  may_many (fun c => match c with with_peripheral_interrupt v => Some v | _ => None end) cs (p_interrupt x) /\
  may (fun c => match c with with_peripheral_registers v => Some v | _ => None end) cs (p_registers x) /\
  may (fun c => match c with with_peripheral_derived_from v => Some v | _ => None end) cs (p_derived_from x).

Definition cpu_built (cs : list cpu_call) (x : cpu) : Prop :=
  must (fun c => match c with with_cpu_name v => Some v | _ => None end) cs (cpu_name x) /\
  must (fun c => match c with with_cpu_revision v => Some v | _ => None end) cs (cpu_revision x) /\
  must (fun c => match c with with_cpu_endian v => Some v | _ => None end) cs (cpu_endian x) /\
  must (fun c => match c with with_cpu_mpu_present v => Some v | _ => None end) cs (cpu_mpu_present x) /\
  must (fun c => match c with with_cpu_fpu_present v => Some v | _ => None end) cs (cpu_fpu_present x) /\
  may (fun c => match c with with_cpu_fpu_double_precision v => Some v | _ => None end) cs (cpu_fpu_double_precision x) /\
  may (fun c => match c with with_cpu_dsp_present v => Some v | _ => None end) cs (cpu_dsp_present x) /\
  may (fun c => match c with with_cpu_icache_present v => Some v | _ => None end) cs (cpu_icache_present x) /\
  may (fun c => match c with with_cpu_dcache_present v => Some v | _ => None end) cs (cpu_dcache_present x) /\
  may (fun c => match c with with_cpu_itcm_present v => Some v | _ => None end) cs (cpu_itcm_present x) /\
  may (fun c => match c with with_cpu_dtcm_present v => Some v | _ => None end) cs (cpu_dtcm_present x) /\
  may (fun c => match c with with_cpu_vtor_present v => Some v | _ => None end) cs (cpu_vtor_present x) /\
  must (fun c => match c with with_cpu_nvic_priority_bits v => Some v | _ => None end) cs (cpu_nvic_priority_bits x) /\
  must (fun c => match c with with_cpu_has_vendor_systick v => Some v | _ => None end) cs (cpu_has_vendor_systick x) /\
  may (fun c => match c with with_cpu_device_num_interrupts v => Some v | _ => None end) cs (cpu_device_num_interrupts x) /\
  may (fun c => match c with with_cpu_sau_num_regions v => Some v | _ => None end) cs (cpu_sau_num_regions x).

Definition device_built (l : level) (cs : list device_call) (x : device) : Prop :=
  may (fun c => match c with with_device_vendor v => Some v | _ => None end) cs (d_vendor x) /\
  may (fun c => match c with with_device_vendor_id v => Some v | _ => None end) cs (d_vendor_id x) /\
  must (fun c => match c with with_device_name v => Some v | _ => None end) cs (d_name x) /\
  may (fun c => match c with with_device_series v => Some v | _ => None end) cs (d_series x) /\
  below_strict l "1.0" (fun c => match c with with_device_version v => Some v | _ => None end) cs (d_version x) /\
  below_strict l "" (fun c => match c with with_device_description v => Some v | _ => None end) cs (d_description x) /\
  may (fun c => match c with with_device_license_text v => Some v | _ => None end) cs (d_license_text x) /\
  may (fun c => match c with with_device_cpu v => Some v | _ => None end) cs (d_cpu x) /\
  may (fun c => match c with with_device_header_system_filename v => Some v | _ => None end) cs (d_header_system_filename x) /\
  may (fun c => match c with with_device_header_definitions_prefix v => Some v | _ => None end) cs (d_header_definitions_prefix x) /\
  below_strict l 8 (fun c => match c with with_device_address_unit_bits v => Some v | _ => None end) cs (d_address_unit_bits x) /\
  below_strict l 32 (fun c => match c with with_device_width v => Some v | _ => None end) cs (d_width x) /\
  or_else rp_default (fun c => match c with with_device_default_register_properties v => Some v | _ => None end) cs (d_default_properties x) /\
  must (fun c => match c with with_device_peripherals v => Some v | _ => None end) cs (d_peripherals x) /\
  or_else "http://www.w3.org/2001/XMLSchema-instance" (fun c => match c with with_device_xmlns_xs v => Some v | _ => None end) cs (d_xmlns_xs x) /\
  or_else "CMSIS-SVD_Schema_1_1.xsd" (fun c => match c with with_device_no_namespace_schema_location v => Some v | _ => None end) cs (d_no_namespace_schema_location x) /\
  or_else "1.1" (fun c => match c with with_device_schema_version v => Some v | _ => None end) cs (d_schema_version x).

(** ** Which setter a call is of. *)
Definition props_setter (c : props_call) : string :=
  match c with with_props_size _ => "size" | with_props_access _ => "access" | with_props_protection _ => "protection" | with_props_reset_value _ => "reset_value" | with_props_reset_mask _ => "reset_mask" end.
Definition value_setter (c : value_call) : string :=
  match c with with_value_name _ => "name" | with_value_description _ => "description" | with_value_value _ => "value" | with_value_is_default _ => "is_default" end.
Definition values_setter (c : values_call) : string :=
  match c with with_values_name _ => "name" | with_values_usage _ => "usage" | with_values_derived_from _ => "derived_from" | with_values_values _ => "values" end.
Definition dim_setter (c : dim_call) : string :=
  match c with with_dim_dim _ => "dim" | with_dim_dim_increment _ => "dim_increment" | with_dim_dim_index _ => "dim_index" | with_dim_dim_name _ => "dim_name" | with_dim_dim_array_index _ => "dim_array_index" end.
Definition field_setter (c : field_call) : string :=
  match c with with_field_name _ => "name" | with_field_description _ => "description" | with_field_bit_range _ => "bit_range" | with_field_bit_offset _ => "bit_offset" | with_field_bit_width _ => "bit_width" | with_field_access _ => "access" | with_field_modified_write_values _ => "modified_write_values" | with_field_write_constraint _ => "write_constraint" | with_field_read_action _ => "read_action" | with_field_enumerated_values _ => "enumerated_values" | with_field_derived_from _ => "derived_from" end.
Definition register_setter (c : register_call) : string :=
  match c with with_register_name _ => "name" | with_register_display_name _ => "display_name" | with_register_description _ => "description" | with_register_alternate_group _ => "alternate_group" | with_register_alternate_register _ => "alternate_register" | with_register_address_offset _ => "address_offset" | with_register_properties _ => "properties" | with_register_datatype _ => "datatype" | with_register_modified_write_values _ => "modified_write_values" | with_register_write_constraint _ => "write_constraint" | with_register_read_action _ => "read_action" | with_register_fields _ => "fields" | with_register_derived_from _ => "derived_from" | with_register_size _ => "size" | with_register_access _ => "access" | with_register_reset_value _ => "reset_value" | with_register_reset_mask _ => "reset_mask" end.
Definition cluster_setter (c : cluster_call) : string :=
  match c with with_cluster_name _ => "name" | with_cluster_description _ => "description" | with_cluster_alternate_cluster _ => "alternate_cluster" | with_cluster_header_struct_name _ => "header_struct_name" | with_cluster_address_offset _ => "address_offset" | with_cluster_default_register_properties _ => "default_register_properties" | with_cluster_children _ => "children" | with_cluster_derived_from _ => "derived_from" end.
Definition block_setter (c : block_call) : string :=
  match c with with_block_offset _ => "offset" | with_block_size _ => "size" | with_block_usage _ => "usage" | with_block_protection _ => "protection" end.
Definition interrupt_setter (c : interrupt_call) : string :=
  match c with with_interrupt_name _ => "name" | with_interrupt_description _ => "description" | with_interrupt_value _ => "value" end.
Definition peripheral_setter (c : peripheral_call) : string :=
  match c with with_peripheral_name _ => "name" | with_peripheral_display_name _ => "display_name" | with_peripheral_version _ => "version" | with_peripheral_description _ => "description" | with_peripheral_alternate_peripheral _ => "alternate_peripheral" | with_peripheral_group_name _ => "group_name" | with_peripheral_prepend_to_name _ => "prepend_to_name" | with_peripheral_append_to_name _ => "append_to_name" | with_peripheral_header_struct_name _ => "header_struct_name" | with_peripheral_base_address _ => "base_address" | with_peripheral_default_register_properties _ => "default_register_properties" | with_peripheral_address_block _ => "address_block" | with_peripheral_interrupt _ => "interrupt" | with_peripheral_registers _ => "registers" | with_peripheral_derived_from _ => "derived_from" end.
Definition cpu_setter (c : cpu_call) : string :=
  match c with with_cpu_name _ => "name" | with_cpu_revision _ => "revision" | with_cpu_endian _ => "endian" | with_cpu_mpu_present _ => "mpu_present" | with_cpu_fpu_present _ => "fpu_present" | with_cpu_fpu_double_precision _ => "fpu_double_precision" | with_cpu_dsp_present _ => "dsp_present" | with_cpu_icache_present _ => "icache_present" | with_cpu_dcache_present _ => "dcache_present" | with_cpu_itcm_present _ => "itcm_present" | with_cpu_dtcm_present _ => "dtcm_present" | with_cpu_vtor_present _ => "vtor_present" | with_cpu_nvic_priority_bits _ => "nvic_priority_bits" | with_cpu_has_vendor_systick _ => "has_vendor_systick" | with_cpu_device_num_interrupts _ => "device_num_interrupts" | with_cpu_sau_num_regions _ => "sau_num_regions" end.
Definition device_setter (c : device_call) : string :=
  match c with with_device_vendor _ => "vendor" | with_device_vendor_id _ => "vendor_id" | with_device_name _ => "name" | with_device_series _ => "series" | with_device_version _ => "version" | with_device_description _ => "description" | with_device_license_text _ => "license_text" | with_device_cpu _ => "cpu" | with_device_header_system_filename _ => "header_system_filename" | with_device_header_definitions_prefix _ => "header_definitions_prefix" | with_device_address_unit_bits _ => "address_unit_bits" | with_device_width _ => "width" | with_device_default_register_properties _ => "default_register_properties" | with_device_peripherals _ => "peripherals" | with_device_xmlns_xs _ => "xmlns_xs" | with_device_no_namespace_schema_location _ => "no_namespace_schema_location" | with_device_schema_version _ => "schema_version" end.
(** Calls of different setters may be exchanged, but for a register the whole properties
    and one of them, and for a field two calls about its bits. *)
Definition register_apart (c c' : register_call) : Prop :=
  register_setter c <> register_setter c' /\
  (register_setter c = "properties" -> ~ In (register_setter c') ["size"; "access"; "reset_value"; "reset_mask"]) /\
  (register_setter c' = "properties" -> ~ In (register_setter c) ["size"; "access"; "reset_value"; "reset_mask"]).
Definition field_apart (c c' : field_call) : Prop :=
  field_setter c <> field_setter c' /\
  (In (field_setter c) ["bit_range"; "bit_offset"; "bit_width"] -> ~ In (field_setter c') ["bit_range"; "bit_offset"; "bit_width"]).
