(** Vocabulary for C99: descriptions without addresses, bit positions and array steps. *)
From Verif Require Import Base Types.

Definition loose_dim (d : dim_element) : dim_element :=
  {| de_dim := de_dim d; de_increment := 0; de_index := de_index d; de_name := de_name d; de_array_index := de_array_index d |}.
Definition loose_any {A} (f : A -> A) (x : maybe_array A) : maybe_array A :=
  match x with Single i => Single (f i) | Array i d => Array (f i) (loose_dim d) end.
Definition loose_bits (b : bit_range) : bit_range := BitRange 0 (br_width b) (br_type b).
Definition loose_field (f : field_info) : field_info :=
  {| f_name := f_name f; f_description := f_description f; f_bit_range := loose_bits (f_bit_range f);
     f_access := f_access f; f_mwv := f_mwv f; f_write_constraint := f_write_constraint f;
     f_read_action := f_read_action f; f_enumerated_values := f_enumerated_values f;
     f_derived_from := f_derived_from f |}.
Definition loose_register (r : register_info) : register_info :=
  {| r_name := r_name r; r_display_name := r_display_name r; r_description := r_description r;
     r_alternate_group := r_alternate_group r; r_alternate_register := r_alternate_register r;
     r_address_offset := 0; r_properties := r_properties r; r_datatype := r_datatype r;
     r_mwv := r_mwv r; r_write_constraint := r_write_constraint r; r_read_action := r_read_action r;
     r_fields := option_map (map (loose_any loose_field)) (r_fields r); r_derived_from := r_derived_from r |}.
Definition loose_block (c : cluster_info) (l : list register_cluster) : cluster_info :=
  {| c_name := c_name c; c_description := c_description c; c_alternate_cluster := c_alternate_cluster c;
     c_header_struct_name := c_header_struct_name c; c_address_offset := 0;
     c_default_properties := c_default_properties c; c_children := l; c_derived_from := c_derived_from c |}.
Fixpoint loose_rc (rc : register_cluster) : register_cluster :=
  match rc with
  | RCRegister r => RCRegister (loose_any loose_register r)
  | RCCluster (Single c) => RCCluster (Single (loose_block c (map loose_rc (c_children c))))
  | RCCluster (Array c d) => RCCluster (Array (loose_block c (map loose_rc (c_children c))) (loose_dim d))
  end.
Definition loose_peripheral (p : peripheral_info) : peripheral_info :=
  {| p_name := p_name p; p_display_name := p_display_name p; p_version := p_version p;
     p_description := p_description p; p_alternate_peripheral := p_alternate_peripheral p;
     p_group_name := p_group_name p; p_prepend_to_name := p_prepend_to_name p;
     p_append_to_name := p_append_to_name p; p_header_struct_name := p_header_struct_name p;
     p_base_address := 0; p_default_properties := p_default_properties p;
     p_address_block := p_address_block p; p_interrupt := p_interrupt p;
     p_registers := option_map (map loose_rc) (p_registers p); p_derived_from := p_derived_from p |}.
Definition loose_device (d : device) : device :=
  {| d_vendor := d_vendor d; d_vendor_id := d_vendor_id d; d_name := d_name d; d_series := d_series d;
     d_version := d_version d; d_description := d_description d; d_license_text := d_license_text d;
     d_cpu := d_cpu d; d_header_system_filename := d_header_system_filename d;
     d_header_definitions_prefix := d_header_definitions_prefix d;
     d_address_unit_bits := d_address_unit_bits d; d_width := d_width d;
     d_default_properties := d_default_properties d;
     d_peripherals := map (loose_any loose_peripheral) (d_peripherals d); d_xmlns_xs := d_xmlns_xs d;
     d_no_namespace_schema_location := d_no_namespace_schema_location d;
     d_schema_version := d_schema_version d |}.

(** The same but for addresses, bit positions and array steps *)
Definition same_but_places (d e : device) : Prop := loose_device d = loose_device e.

(** The same outcome, unless one of the two is an arithmetic overflow *)
Definition agree {A} (R : A -> A -> Prop) (r r' : res A) : Prop :=
  match r, r' with
  | Ok x, Ok y => R x y
  | Err a, Err b => a = b
  | Panic Overflow, _ | _, Panic Overflow => True
  | Panic a, Panic b => a = b
  | _, _ => False
  end.
