(** What is promised about parsed devices, independently of the parser. *)
From Coq Require Import List NArith String Ascii.
Import ListNotations.
From Verif Require Import Base Types Xml SpecNum SpecArray SpecText SpecXml.
Open Scope N_scope.

(** ** Arrays inside a device: the name template and the dimensions *)
Inductive array_in_register (r : register_info) : string -> dim_element -> Prop :=
  | ar_field fs f d : r_fields r = Some fs -> In (Array f d) fs -> array_in_register r (f_name f) d.
Inductive array_in_rc : register_cluster -> string -> dim_element -> Prop :=
  | ac_register r d : array_in_rc (RCRegister (Array r d)) (r_name r) d
  | ac_in_register r n d : array_in_register (info r) n d -> array_in_rc (RCRegister r) n d
  | ac_cluster c d : array_in_rc (RCCluster (Array c d)) (c_name c) d
  | ac_child c rc n d : In rc (c_children (info c)) -> array_in_rc rc n d -> array_in_rc (RCCluster c) n d.
Inductive array_in_peripheral (p : peripheral_info) : string -> dim_element -> Prop :=
  | ap_child rcs rc n d : p_registers p = Some rcs -> In rc rcs -> array_in_rc rc n d ->
      array_in_peripheral p n d.
Inductive array_in_device (x : device) : string -> dim_element -> Prop :=
  | ad_peripheral p d : In (Array p d) (d_peripherals x) -> array_in_device x (p_name p) d
  | ad_child p n d : In p (d_peripherals x) -> array_in_peripheral (info p) n d -> array_in_device x n d.
(** A template with a placeholder; one index per instance, if indexes are listed. *)
Definition has_placeholder (s : string) : Prop := exists a b, s = (a ++ "%s" ++ b)%string.
Definition indexed (d : dim_element) : Prop :=
  forall l, de_index d = Some l -> N.of_nat (List.length l) = de_dim d.

(** ** Without the enumerations and write constraints of fields *)
Definition on_info {A} (f : A -> A) (x : maybe_array A) : maybe_array A :=
  match x with Single i => Single (f i) | Array i d => Array (f i) d end.
Definition bare_field (f : field_info) : field_info :=
  {| f_name := f_name f; f_description := f_description f; f_bit_range := f_bit_range f;
     f_access := f_access f; f_mwv := f_mwv f; f_write_constraint := None;
     f_read_action := f_read_action f; f_enumerated_values := []; f_derived_from := f_derived_from f |}.
Definition bare_register (r : register_info) : register_info :=
  {| r_name := r_name r; r_display_name := r_display_name r; r_description := r_description r;
     r_alternate_group := r_alternate_group r; r_alternate_register := r_alternate_register r;
     r_address_offset := r_address_offset r; r_properties := r_properties r; r_datatype := r_datatype r;
     r_mwv := r_mwv r; r_write_constraint := r_write_constraint r; r_read_action := r_read_action r;
     r_fields := option_map (map (on_info bare_field)) (r_fields r); r_derived_from := r_derived_from r |}.
Definition with_children (c : cluster_info) (l : list register_cluster) : cluster_info :=
  {| c_name := c_name c; c_description := c_description c; c_alternate_cluster := c_alternate_cluster c;
     c_header_struct_name := c_header_struct_name c; c_address_offset := c_address_offset c;
     c_default_properties := c_default_properties c; c_children := l; c_derived_from := c_derived_from c |}.
Fixpoint bare_rc (rc : register_cluster) : register_cluster :=
  match rc with
  | RCRegister r => RCRegister (on_info bare_register r)
  | RCCluster (Single c) => RCCluster (Single (with_children c (map bare_rc (c_children c))))
  | RCCluster (Array c d) => RCCluster (Array (with_children c (map bare_rc (c_children c))) d)
  end.
Definition bare_peripheral (p : peripheral_info) : peripheral_info :=
  {| p_name := p_name p; p_display_name := p_display_name p; p_version := p_version p;
     p_description := p_description p; p_alternate_peripheral := p_alternate_peripheral p;
     p_group_name := p_group_name p; p_prepend_to_name := p_prepend_to_name p;
     p_append_to_name := p_append_to_name p; p_header_struct_name := p_header_struct_name p;
     p_base_address := p_base_address p; p_default_properties := p_default_properties p;
     p_address_block := p_address_block p; p_interrupt := p_interrupt p;
     p_registers := option_map (map bare_rc) (p_registers p); p_derived_from := p_derived_from p |}.
Definition bare_device (d : device) : device :=
  {| d_vendor := d_vendor d; d_vendor_id := d_vendor_id d; d_name := d_name d; d_series := d_series d;
     d_version := d_version d; d_description := d_description d; d_license_text := d_license_text d;
     d_cpu := d_cpu d; d_header_system_filename := d_header_system_filename d;
     d_header_definitions_prefix := d_header_definitions_prefix d;
     d_address_unit_bits := d_address_unit_bits d; d_width := d_width d;
     d_default_properties := d_default_properties d;
     d_peripherals := map (on_info bare_peripheral) (d_peripherals d); d_xmlns_xs := d_xmlns_xs d;
     d_no_namespace_schema_location := d_no_namespace_schema_location d;
     d_schema_version := d_schema_version d |}.

(** ** What makes the parser panic *)
Inductive within : xml -> xml -> Prop :=
  | within_self n : within n n
  | within_child t a l c n : In c l -> within c n -> within (Elem t a l) n.
(** A write constraint with no element inside. *)
Definition hollow_constraint (n : xml) : Prop :=
  exists a l, n = Elem "writeConstraint" a l /\ forall t b k, ~ In (Elem t b k) l.
(** A field over all bits from 0 to 4294967295. *)
Definition widest_field (n : xml) : Prop :=
  named "field" n /\ exists t, written_ends n 4294967295 0 t.
Definition blame (m : mode) (n : xml) (p : panic) : Prop :=
  (p = Unwrap /\ exists c, within n c /\ hollow_constraint c) \/
  (p = Overflow /\ m = Debug /\ exists c, within n c /\ widest_field c).
