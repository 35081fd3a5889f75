(** Vocabulary for C97: the names of all peripherals begin with a further text. *)
From Verif Require Import Base Types Derive SpecParse.

(** A text with neither dots nor anything of a placeholder. *)
Fixpoint inert (s : string) : Prop :=
  match s with
  | EmptyString => True
  | String a s' => a <> "."%char /\ a <> "%"%char /\ a <> "["%char /\ inert s'
  end.

Fixpoint dots (s : string) : nat :=
  match s with
  | EmptyString => O
  | String a s' => if Ascii.eqb a "." then S (dots s') else dots s'
  end.

Section Rename.
  Variable pre : string.
  Definition longer (s : string) : string := (pre ++ s)%string.
  (** A reference with at least this many dots begins with the name of a peripheral. *)
  Definition reference (n : nat) (s : string) : string := if Nat.leb n (dots s) then longer s else s.

  (** References from clusters and registers name a peripheral if they have a dot in them, those
      from fields if they have two, those from enumerated values if they have three. (A name of
      enumerated values with three dots could not be referred to, but could be the text of a
      reference; it is renamed as such.) *)
  Definition rename_values (e : enumerated_values) : enumerated_values :=
    {| evs_name := option_map (reference 3) (evs_name e); evs_usage := evs_usage e;
       evs_derived_from := option_map (reference 3) (evs_derived_from e); evs_values := evs_values e |}.
  Definition rename_field (f : field_info) : field_info :=
    {| f_name := f_name f; f_description := f_description f; f_bit_range := f_bit_range f;
       f_access := f_access f; f_mwv := f_mwv f; f_write_constraint := f_write_constraint f;
       f_read_action := f_read_action f; f_enumerated_values := map rename_values (f_enumerated_values f);
       f_derived_from := option_map (reference 2) (f_derived_from f) |}.
  Definition rename_register (r : register_info) : register_info :=
    {| r_name := r_name r; r_display_name := r_display_name r; r_description := r_description r;
       r_alternate_group := r_alternate_group r; r_alternate_register := r_alternate_register r;
       r_address_offset := r_address_offset r; r_properties := r_properties r; r_datatype := r_datatype r;
       r_mwv := r_mwv r; r_write_constraint := r_write_constraint r; r_read_action := r_read_action r;
       r_fields := option_map (map (on_info rename_field)) (r_fields r);
       r_derived_from := option_map (reference 1) (r_derived_from r) |}.
  Definition referring (c : cluster_info) (l : list register_cluster) : cluster_info :=
    {| c_name := c_name c; c_description := c_description c; c_alternate_cluster := c_alternate_cluster c;
       c_header_struct_name := c_header_struct_name c; c_address_offset := c_address_offset c;
       c_default_properties := c_default_properties c; c_children := l;
       c_derived_from := option_map (reference 1) (c_derived_from c) |}.
  Fixpoint rename_rc (rc : register_cluster) : register_cluster :=
    match rc with
    | RCRegister r => RCRegister (on_info rename_register r)
    | RCCluster (Single c) => RCCluster (Single (referring c (map rename_rc (c_children c))))
    | RCCluster (Array c d) => RCCluster (Array (referring c (map rename_rc (c_children c))) d)
    end.
  Definition rename_info (p : peripheral_info) : peripheral_info :=
    {| p_name := longer (p_name p); p_display_name := p_display_name p; p_version := p_version p;
       p_description := p_description p; p_alternate_peripheral := option_map longer (p_alternate_peripheral p);
       p_group_name := p_group_name p; p_prepend_to_name := p_prepend_to_name p;
       p_append_to_name := p_append_to_name p; p_header_struct_name := p_header_struct_name p;
       p_base_address := p_base_address p; p_default_properties := p_default_properties p;
       p_address_block := p_address_block p; p_interrupt := p_interrupt p;
       p_registers := option_map (map rename_rc) (p_registers p);
       p_derived_from := option_map longer (p_derived_from p) |}.
  (** The names of the instances of an array can be listed. *)
  Definition rename_listed (e : enumerated_value) : enumerated_value :=
    {| ev_name := longer (ev_name e); ev_description := ev_description e; ev_value := ev_value e; ev_is_default := ev_is_default e |}.
  Definition rename_dim (d : dim_element) : dim_element :=
    {| de_dim := de_dim d; de_increment := de_increment d; de_index := de_index d; de_name := de_name d;
       de_array_index := option_map (fun a => {| dai_header_enum_name := dai_header_enum_name a;
                                                 dai_values := map rename_listed (dai_values a) |}) (de_array_index d) |}.
  Definition rename_peripheral (p : peripheral) : peripheral :=
    match p with Single i => Single (rename_info i) | Array i d => Array (rename_info i) (rename_dim d) end.
  Definition rename_device (d : device) : device :=
    {| d_vendor := d_vendor d; d_vendor_id := d_vendor_id d; d_name := d_name d; d_series := d_series d;
       d_version := d_version d; d_description := d_description d; d_license_text := d_license_text d;
       d_cpu := d_cpu d; d_header_system_filename := d_header_system_filename d;
       d_header_definitions_prefix := d_header_definitions_prefix d;
       d_address_unit_bits := d_address_unit_bits d; d_width := d_width d;
       d_default_properties := d_default_properties d;
       d_peripherals := map rename_peripheral (d_peripherals d); d_xmlns_xs := d_xmlns_xs d;
       d_no_namespace_schema_location := d_no_namespace_schema_location d;
       d_schema_version := d_schema_version d |}.
End Rename.

(** Errors of the same kind about elements of the same kind. *)
Definition same_fault (e e' : err) : Prop :=
  match e, e' with
  | ENotFound k _, ENotFound k' _ => k = k'
  | ESelfDerived k _, ESelfDerived k' _ => k = k'
  | _, _ => e = e'
  end.
(** The second result is the first, renamed. *)
Definition alike {A B} (h : A -> B) (r : res A) (r' : res B) : Prop :=
  match r with
  | Ok x => r' = Ok (h x)
  | Err e => exists e', r' = Err e' /\ same_fault e e'
  | Panic p => r' = Panic p
  end.
