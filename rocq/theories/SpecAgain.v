(** Vocabulary for C79 and C80: expanded devices that can be written and read again. *)
From Coq Require Import List NArith String Ascii.
Import ListNotations.
From Verif Require Import Base Types SpecArray.
Open Scope N_scope.

(** The text begins and ends with a printable ASCII character other than the space. *)
Definition printable (c : ascii) : Prop := 33 <= N_of_ascii c <= 126.
Definition edged (s : string) : Prop :=
  (exists c t, s = String c t /\ printable c) /\ (exists c t, s = (t ++ String c "")%string /\ printable c).
(** Arrays that have instances, with index texts that can stand at either end of a name. *)
Definition tidy_array (e : dim_element) : Prop :=
  1 <= de_dim e /\ forall is, de_index e = Some is -> Forall edged is.
(** The description with the attributes of the root that the serde form does not keep. *)
Definition with_header (d : device) : device :=
  {| d_vendor := d_vendor d; d_vendor_id := d_vendor_id d; d_name := d_name d; d_series := d_series d;
     d_version := d_version d; d_description := d_description d; d_license_text := d_license_text d;
     d_cpu := d_cpu d; d_header_system_filename := d_header_system_filename d;
     d_header_definitions_prefix := d_header_definitions_prefix d;
     d_address_unit_bits := d_address_unit_bits d; d_width := d_width d;
     d_default_properties := d_default_properties d; d_peripherals := d_peripherals d;
     d_xmlns_xs := "http://www.w3.org/2001/XMLSchema-instance";
     d_no_namespace_schema_location := "CMSIS-SVD_Schema_1_1.xsd"; d_schema_version := "1.1" |}.
