(** What a description read back from its serde form should be, and which descriptions
    have one. *)
From Coq Require Import List NArith String Ascii.
Import ListNotations.
From Verif Require Import Base Types SpecNum SpecArray SpecBuild SpecValidate SpecParse SpecRound.
Open Scope N_scope.

(** ** The description that comes back *)
(** The form without an index list is not recognised as an array. *)
Definition b_any {A} (f : A -> A) (x : maybe_array A) : maybe_array A :=
  match x with
  | Single a => Single (f a)
  | Array a d => match de_index d with Some _ => Array (f a) d | None => Single (f a) end
  end.
Definition b_field : field -> field := b_any (fun f => f).
Definition b_register (r : register_info) : register_info :=
  {| r_name := r_name r; r_display_name := r_display_name r; r_description := r_description r;
     r_alternate_group := r_alternate_group r; r_alternate_register := r_alternate_register r;
     r_address_offset := r_address_offset r; r_properties := r_properties r; r_datatype := r_datatype r;
     r_mwv := r_mwv r; r_write_constraint := r_write_constraint r; r_read_action := r_read_action r;
     r_fields := option_map (map b_field) (r_fields r); r_derived_from := r_derived_from r |}.
Definition b_cluster (l : list register_cluster) (c : cluster_info) : cluster_info :=
  {| c_name := c_name c; c_description := c_description c; c_alternate_cluster := c_alternate_cluster c;
     c_header_struct_name := c_header_struct_name c; c_address_offset := c_address_offset c;
     c_default_properties := c_default_properties c; c_children := l; c_derived_from := c_derived_from c |}.
Fixpoint b_rc (rc : register_cluster) : register_cluster :=
  match rc with
  | RCRegister r => RCRegister (b_any b_register r)
  | RCCluster c => RCCluster (b_any (b_cluster (map b_rc (c_children (info c)))) c)
  end.
Definition b_peripheral (p : peripheral_info) : peripheral_info :=
  {| p_name := p_name p; p_display_name := p_display_name p; p_version := p_version p;
     p_description := p_description p; p_alternate_peripheral := p_alternate_peripheral p;
     p_group_name := p_group_name p; p_prepend_to_name := p_prepend_to_name p;
     p_append_to_name := p_append_to_name p; p_header_struct_name := p_header_struct_name p;
     p_base_address := p_base_address p; p_default_properties := p_default_properties p;
     p_address_block := p_address_block p; p_interrupt := p_interrupt p;
     p_registers := option_map (map b_rc) (p_registers p); p_derived_from := p_derived_from p |}.
Definition b_device (d : device) : device :=
  {| d_vendor := d_vendor d; d_vendor_id := d_vendor_id d; d_name := d_name d; d_series := d_series d;
     d_version := d_version d; d_description := d_description d; d_license_text := d_license_text d;
     d_cpu := d_cpu d; d_header_system_filename := d_header_system_filename d;
     d_header_definitions_prefix := d_header_definitions_prefix d;
     d_address_unit_bits := d_address_unit_bits d; d_width := d_width d;
     d_default_properties := d_default_properties d;
     d_peripherals := map (b_any b_peripheral) (d_peripherals d);
     d_xmlns_xs := "http://www.w3.org/2001/XMLSchema-instance";
     d_no_namespace_schema_location := "CMSIS-SVD_Schema_1_1.xsd"; d_schema_version := "1.1" |}.

(** ** Descriptions in the ranges of their types, given what is asked of index lists
    and of bit ranges. Texts are arbitrary. *)
Definition props_in (p : reg_props) : Prop :=
  below (2 ^ 32) (rp_size p) /\ below (2 ^ 64) (rp_reset_value p) /\ below (2 ^ 64) (rp_reset_mask p).
Definition value_in (e : enumerated_value) : Prop := below (2 ^ 64) (ev_value e).
Definition values_in (e : enumerated_values) : Prop := Forall value_in (evs_values e).
Definition cluster_in (c : cluster_info) : Prop :=
  c_address_offset c < 2 ^ 32 /\ props_in (c_default_properties c).
Definition cpu_in (c : cpu) : Prop :=
  cpu_nvic_priority_bits c < 2 ^ 32 /\ below (2 ^ 32) (cpu_device_num_interrupts c) /\
  below (2 ^ 32) (cpu_sau_num_regions c).
Section Holds.
  Variables (indexes : list string -> Prop) (bits : bit_range -> Prop).
  Definition dim_holds (d : dim_element) : Prop :=
    de_dim d < 2 ^ 32 /\ de_increment d < 2 ^ 32 /\ opt_all indexes (de_index d) /\
    opt_all (fun a => Forall value_in (dai_values a)) (de_array_index d).
  Definition any_holds {A} (P : A -> Prop) (x : maybe_array A) : Prop :=
    match x with Single a => P a | Array a d => P a /\ dim_holds d end.
  Definition field_holds (f : field_info) : Prop :=
    bits (f_bit_range f) /\ opt_all constraint_fits (f_write_constraint f) /\
    Forall values_in (f_enumerated_values f).
  Definition register_holds (r : register_info) : Prop :=
    r_address_offset r < 2 ^ 32 /\ props_in (r_properties r) /\ opt_all constraint_fits (r_write_constraint r) /\
    opt_all (Forall (any_holds field_holds)) (r_fields r).
  Inductive rc_holds : register_cluster -> Prop :=
    | rh_register r : any_holds register_holds r -> rc_holds (RCRegister r)
    | rh_cluster c : any_holds cluster_in c -> Forall rc_holds (c_children (info c)) -> rc_holds (RCCluster c).
  Definition peripheral_holds (p : peripheral_info) : Prop :=
    p_base_address p < 2 ^ 64 /\ props_in (p_default_properties p) /\
    opt_all (Forall block_fits) (p_address_block p) /\ Forall (fun i => it_value i < 2 ^ 32) (p_interrupt p) /\
    opt_all (Forall rc_holds) (p_registers p).
  Definition device_holds (d : device) : Prop :=
    opt_all cpu_in (d_cpu d) /\ d_address_unit_bits d < 2 ^ 32 /\ d_width d < 2 ^ 32 /\
    props_in (d_default_properties d) /\ Forall (any_holds peripheral_holds) (d_peripherals d).
End Holds.
(** Index texts that can be told apart in a list. *)
Definition indexes_in (is : list string) : Prop :=
  is <> [] /\ Forall (free_of ",") is /\ Forall (free_of "-") is.
(** Where the notation needs it, the build [m] can compute the most significant bit. *)
Definition bits_in (m : mode) (b : bit_range) : Prop :=
  br_offset b < 2 ^ 32 /\ br_width b < 2 ^ 32 /\
  (br_type b <> BRT_OffsetWidth -> 1 <= br_width b /\ br_offset b + br_width b <= 2 ^ 32 /\
     (m = Debug -> br_offset b + br_width b < 2 ^ 32)).
Definition device_in (m : mode) : device -> Prop := device_holds indexes_in (bits_in m).

(** Every array lists its indexes. *)
Definition device_listed (d : device) : Prop := forall n a, array_in_device d n a -> de_index a <> None.
Definition usual_header (d : device) : Prop :=
  d_xmlns_xs d = "http://www.w3.org/2001/XMLSchema-instance"%string /\
  d_no_namespace_schema_location d = "CMSIS-SVD_Schema_1_1.xsd"%string /\ d_schema_version d = "1.1"%string.

(** ** Bit ranges *)
(** The text [[msb:lsb]], followed by whatever another colon separates. *)
Definition bracketed (t : string) (h l : N) : Prop :=
  exists body a b rest, t = ("[" ++ body ++ "]")%string /\ cut ":" body (a :: b :: rest) /\
    signed (digits_with (digit 10) 10) a h /\ signed (digits_with (digit 10) 10) b l /\ h < 2 ^ 32 /\ l < 2 ^ 32.
(** The width of [h:l] as machine arithmetic has it. *)
Definition span (h l w : N) : Prop := w < 2 ^ 32 /\ (l + w = h + 1 \/ l + w = h + 1 + 2 ^ 32 \/ (l = 0 /\ h + 1 = 2 ^ 32 /\ w = 0)).
(** Ends for which checked arithmetic fails. *)
Definition bad_span (h l : N) : Prop := h < l \/ (h = 4294967295 /\ l = 0).
(** The most significant bit cannot be computed in checked arithmetic. *)
Definition no_msb (b : bit_range) : Prop :=
  br_type b <> BRT_OffsetWidth /\ (2 ^ 32 <= br_offset b + br_width b \/ br_offset b + br_width b = 0).
(** What reading with checked arithmetic guarantees. *)
Definition bits_read (b : bit_range) : Prop :=
  br_offset b < 2 ^ 32 /\ br_width b < 2 ^ 32 /\
  (br_type b <> BRT_OffsetWidth -> 1 <= br_width b /\ br_offset b + br_width b <= 2 ^ 32).
Definition bits_ranged (b : bit_range) : Prop := br_offset b < 2 ^ 32 /\ br_width b < 2 ^ 32.
