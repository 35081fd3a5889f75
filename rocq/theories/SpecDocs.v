(** Vocabulary for C98: descriptions with their explanatory texts changed. *)
From Verif Require Import Base Types SpecArray.

(** The texts are left out altogether, or each is rewritten in a way that treats the texts of
    instances as it treats their template. *)
Definition editing (say : option string -> option string) : Prop :=
  (forall o, say o = None) \/
  exists t, (forall o, say o = option_map t o) /\ forall idx s r, filled idx s r -> filled idx (t s) (t r).

Section Docs.
  Variable say : option string -> option string.
  Definition docs_value (e : enumerated_value) : enumerated_value :=
    {| ev_name := ev_name e; ev_description := say (ev_description e); ev_value := ev_value e; ev_is_default := ev_is_default e |}.
  Definition docs_dim (d : dim_element) : dim_element :=
    {| de_dim := de_dim d; de_increment := de_increment d; de_index := de_index d; de_name := de_name d;
       de_array_index := option_map (fun a => {| dai_header_enum_name := dai_header_enum_name a;
                                                 dai_values := map docs_value (dai_values a) |}) (de_array_index d) |}.
  Definition docs_any {A} (f : A -> A) (x : maybe_array A) : maybe_array A :=
    match x with Single i => Single (f i) | Array i d => Array (f i) (docs_dim d) end.
  Definition docs_values (e : enumerated_values) : enumerated_values :=
    {| evs_name := evs_name e; evs_usage := evs_usage e; evs_derived_from := evs_derived_from e;
       evs_values := map docs_value (evs_values e) |}.
  Definition docs_field (f : field_info) : field_info :=
    {| f_name := f_name f; f_description := say (f_description f); f_bit_range := f_bit_range f;
       f_access := f_access f; f_mwv := f_mwv f; f_write_constraint := f_write_constraint f;
       f_read_action := f_read_action f; f_enumerated_values := map docs_values (f_enumerated_values f);
       f_derived_from := f_derived_from f |}.
  Definition docs_register (r : register_info) : register_info :=
    {| r_name := r_name r; r_display_name := say (r_display_name r); r_description := say (r_description r);
       r_alternate_group := r_alternate_group r; r_alternate_register := r_alternate_register r;
       r_address_offset := r_address_offset r; r_properties := r_properties r; r_datatype := r_datatype r;
       r_mwv := r_mwv r; r_write_constraint := r_write_constraint r; r_read_action := r_read_action r;
       r_fields := option_map (map (docs_any docs_field)) (r_fields r); r_derived_from := r_derived_from r |}.
  Definition docs_block (c : cluster_info) (l : list register_cluster) : cluster_info :=
    {| c_name := c_name c; c_description := say (c_description c); c_alternate_cluster := c_alternate_cluster c;
       c_header_struct_name := c_header_struct_name c; c_address_offset := c_address_offset c;
       c_default_properties := c_default_properties c; c_children := l; c_derived_from := c_derived_from c |}.
  Fixpoint docs_rc (rc : register_cluster) : register_cluster :=
    match rc with
    | RCRegister r => RCRegister (docs_any docs_register r)
    | RCCluster (Single c) => RCCluster (Single (docs_block c (map docs_rc (c_children c))))
    | RCCluster (Array c d) => RCCluster (Array (docs_block c (map docs_rc (c_children c))) (docs_dim d))
    end.
  Definition docs_interrupt (i : interrupt) : interrupt :=
    {| it_name := it_name i; it_description := say (it_description i); it_value := it_value i |}.
  Definition docs_peripheral (p : peripheral_info) : peripheral_info :=
    {| p_name := p_name p; p_display_name := say (p_display_name p); p_version := say (p_version p);
       p_description := say (p_description p); p_alternate_peripheral := p_alternate_peripheral p;
       p_group_name := say (p_group_name p); p_prepend_to_name := p_prepend_to_name p;
       p_append_to_name := p_append_to_name p; p_header_struct_name := p_header_struct_name p;
       p_base_address := p_base_address p; p_default_properties := p_default_properties p;
       p_address_block := p_address_block p; p_interrupt := map docs_interrupt (p_interrupt p);
       p_registers := option_map (map docs_rc) (p_registers p); p_derived_from := p_derived_from p |}.
  Definition docs_device (d : device) : device :=
    {| d_vendor := d_vendor d; d_vendor_id := d_vendor_id d; d_name := d_name d; d_series := d_series d;
       d_version := d_version d; d_description := d_description d; d_license_text := say (d_license_text d);
       d_cpu := d_cpu d; d_header_system_filename := d_header_system_filename d;
       d_header_definitions_prefix := d_header_definitions_prefix d;
       d_address_unit_bits := d_address_unit_bits d; d_width := d_width d;
       d_default_properties := d_default_properties d;
       d_peripherals := map (docs_any docs_peripheral) (d_peripherals d); d_xmlns_xs := d_xmlns_xs d;
       d_no_namespace_schema_location := d_no_namespace_schema_location d;
       d_schema_version := d_schema_version d |}.
End Docs.

(** The same but for explanatory texts *)
Definition same_but_texts (d e : device) : Prop := docs_device (fun _ => None) d = docs_device (fun _ => None) e.
