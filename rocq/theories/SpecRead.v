(** What an SVD document says, element by element (C73), independently of the parser: the
    names of the elements and attributes, the words, and what is read from each. *)
From Coq Require Import List NArith String Ascii.
Import ListNotations.
From Verif Require Import Base Types Xml SpecNum SpecArray SpecText SpecXml SpecValidate SpecParse SpecShape SpecFault.
Open Scope N_scope.
Open Scope list_scope.

(** ** Members *)
(** The first child [k] is read as [x]; likewise, if there is one. *)
Definition the {A} (R : xml -> A -> Prop) (k : string) (n : xml) (x : A) : Prop := exists c, first_child k n c /\ R c x.
Definition member {A} (R : xml -> A -> Prop) (k : string) (n : xml) (o : option A) : Prop :=
  match o with Some x => the R k n x | None => no_child k n end.
(** The text of child [k], where an empty element counts as absent, and where an empty text does too. *)
Definition text_of (k : string) (n : xml) (o : option string) : Prop :=
  match o with Some s => says k n s | None => silent k n end.
Definition text_kept (k : string) (n : xml) (o : option string) : Prop :=
  match o with Some s => s <> ""%string /\ says k n s | None => silent k n \/ says k n "" end.
Definition attr_of (k : string) (n : xml) (o : option string) : Prop :=
  match o with Some s => attribute k n s | None => no_attribute k n end.
Definition holds_word {A} (words : list (string * A)) (c : xml) (x : A) : Prop := exists s, content c s /\ In (s, x) words.
Definition holds_flag (c : xml) (b : bool) : Prop := exists s, content c s /\ boolean_text s b.
Definition holds_indexes (c : xml) (l : list string) : Prop := exists s, content c s /\ index_list s l.
(** The children that satisfy [P], in order, each read as one element of the list. *)
Inductive each {A} (P : xml -> Prop) (R : xml -> A -> Prop) : list xml -> list A -> Prop :=
  | each_nil : each P R [] []
  | each_skip c l r : ~ P c -> each P R l r -> each P R (c :: l) r
  | each_take c x l r : P c -> R c x -> each P R l r -> each P R (c :: l) (x :: r).

(** ** Words *)
Definition access_words : list (string * access) :=
  [("read-only", ReadOnly); ("read-write", ReadWrite); ("read-writeOnce", ReadWriteOnce); ("write-only", WriteOnly);
   ("writeOnce", WriteOnce)]%string.
Definition usage_words : list (string * usage) := [("read", URead); ("write", UWrite); ("read-write", UReadWrite)]%string.
Definition type_words : list (string * data_type) :=
  [("uint8_t", U8); ("uint16_t", U16); ("uint32_t", U32); ("uint64_t", U64);
   ("int8_t", I8); ("int16_t", I16); ("int32_t", I32); ("int64_t", I64);
   ("uint8_t *", U8Ptr); ("uint16_t *", U16Ptr); ("uint32_t *", U32Ptr); ("uint64_t *", U64Ptr);
   ("int8_t *", I8Ptr); ("int16_t *", I16Ptr); ("int32_t *", I32Ptr); ("int64_t *", I64Ptr)]%string.
Definition endian_words : list (string * endian) :=
  [("little", Little); ("big", Big); ("selectable", Selectable); ("other", OtherEndian)]%string.
Definition action_words : list (string * read_action) :=
  [("clear", RaClear); ("set", RaSet); ("modify", RaModify); ("modifyExternal", RaModifyExternal)]%string.
Definition effect_words : list (string * mwv) :=
  [("oneToClear", OneToClear); ("oneToSet", OneToSet); ("oneToToggle", OneToToggle);
   ("zeroToClear", ZeroToClear); ("zeroToSet", ZeroToSet); ("zeroToToggle", ZeroToToggle);
   ("clear", MClear); ("set", MSet); ("modify", MModify)]%string.
Definition protection_words : list (string * protection) := [("s", Secure); ("n", NonSecure); ("p", Privileged)]%string.
Definition block_words : list (string * ab_usage) := [("registers", Registers); ("buffer", Buffer); ("reserved", Reserved)]%string.

(** ** Elements *)
Record props_read (l : level) (n : xml) (p : reg_props) : Prop := {
  pr_size : member (number (2 ^ 32)) "size" n (rp_size p);
  pr_access : member (holds_word access_words) "access" n (rp_access p);
  pr_protection : member (holds_word protection_words) "protection" n (rp_protection p);
  pr_value : member (number (2 ^ 64)) "resetValue" n (rp_reset_value p);
  pr_mask : member (number (2 ^ 64)) "resetMask" n (rp_reset_mask p);
  pr_ok : props_ok l p }.

(** [c] is the one element in [n]. *)
Definition only_element (n c : xml) : Prop :=
  exists t a pre post, n = Elem t a (pre ++ c :: post) /\ an_element c /\ Forall (fun x => ~ an_element x) (pre ++ post).
Inductive constraint_read (n : xml) : write_constraint -> Prop :=
  | cr_as_read c b : only_element n c -> named "writeAsRead" c -> holds_flag c b -> constraint_read n (WriteAsRead b)
  | cr_values c b : only_element n c -> named "useEnumeratedValues" c -> holds_flag c b -> constraint_read n (UseEnumeratedValues b)
  | cr_range c lo hi : only_element n c -> named "range" c -> counts (2 ^ 64) "minimum" c lo -> counts (2 ^ 64) "maximum" c hi ->
      constraint_read n (WcRange lo hi).

(** The bits of a field. All bits of a 32 bit offset are no bits in a release build. *)
Inductive bits_read (m : mode) (n : xml) : bit_range -> Prop :=
  | br_ends msb lsb t : written_ends n msb lsb t -> lsb <= msb -> ~ (lsb = 0 /\ msb = 4294967295) ->
      bits_read m n {| br_offset := lsb; br_width := msb - lsb + 1; br_type := t |}
  | br_all t : m = Release -> written_ends n 4294967295 0 t -> bits_read m n {| br_offset := 0; br_width := 0; br_type := t |}
  | br_size o w : written_size n o w -> bits_read m n {| br_offset := o; br_width := w; br_type := BRT_OffsetWidth |}.

Record value_read (l : level) (n : xml) (e : enumerated_value) : Prop := {
  vr_tag : named "enumeratedValue" n;
  vr_name : says "name" n (ev_name e);
  vr_description : text_kept "description" n (ev_description e);
  vr_value : member (number (2 ^ 64)) "value" n (ev_value e);
  (** An unreadable isDefault counts as absent. *)
  vr_default : match ev_is_default e with
               | Some b => the holds_flag "isDefault" n b
               | None => forall b, ~ the holds_flag "isDefault" n b
               end;
  vr_ok : value_ok l e }.

Definition a_value_in_set (c : xml) : Prop :=
  an_element c /\ ~ named "name" c /\ ~ named "headerEnumName" c /\ ~ named "usage" c.
Record values_read (l : level) (n : xml) (e : enumerated_values) : Prop := {
  sr_tag : named "enumeratedValues" n;
  sr_name : text_kept "name" n (evs_name e);
  sr_usage : member (holds_word usage_words) "usage" n (evs_usage e);
  sr_derived : attr_of "derivedFrom" n (evs_derived_from e);
  sr_values : each a_value_in_set (value_read l) (children n) (evs_values e);
  sr_ok : values_ok l e }.

Record array_index_read (l : level) (n : xml) (d : dim_array_index) : Prop := {
  ar_name : text_of "headerEnumName" n (dai_header_enum_name d);
  ar_values : each (fun c => an_element c /\ ~ named "headerEnumName" c) (value_read l) (children n) (dai_values d) }.
Record dim_read (l : level) (n : xml) (d : dim_element) : Prop := {
  dr_dim : counts (2 ^ 32) "dim" n (de_dim d);
  dr_increment : counts (2 ^ 32) "dimIncrement" n (de_increment d);
  dr_index : member holds_indexes "dimIndex" n (de_index d);
  dr_name : text_kept "dimName" n (de_name d);
  dr_array_index : member (array_index_read l) "dimArrayIndex" n (de_array_index d) }.
(** An element that may be an array: it is one if it has an increment. *)
Inductive array_read {A} (l : level) (t : string) (name : A -> string) (R : xml -> A -> Prop) (n : xml) : maybe_array A -> Prop :=
  | ar_one i : named t n -> R n i -> no_child "dimIncrement" n -> array_read l t name R n (Single i)
  | ar_many i d : named t n -> R n i -> dim_read l n d -> has_placeholder (name i) -> indexed d ->
      array_read l t name R n (Array i d).

Record field_read (m : mode) (l : level) (ignore : bool) (n : xml) (f : field_info) : Prop := {
  fr_name : says "name" n (f_name f);
  fr_description : text_kept "description" n (f_description f);
  fr_bits : bits_read m n (f_bit_range f);
  fr_access : member (holds_word access_words) "access" n (f_access f);
  fr_effect : member (holds_word effect_words) "modifiedWriteValues" n (f_mwv f);
  fr_constraint : if ignore then f_write_constraint f = None else member constraint_read "writeConstraint" n (f_write_constraint f);
  fr_action : member (holds_word action_words) "readAction" n (f_read_action f);
  fr_values : if ignore then f_enumerated_values f = []
              else each (named "enumeratedValues") (values_read l) (children n) (f_enumerated_values f);
  fr_derived : attr_of "derivedFrom" n (f_derived_from f);
  fr_ok : field_ok l f }.

Record register_read (m : mode) (l : level) (ignore : bool) (n : xml) (r : register_info) : Prop := {
  rr_name : says "name" n (r_name r);
  rr_display : text_of "displayName" n (r_display_name r);
  rr_description : text_of "description" n (r_description r);
  rr_group : text_of "alternateGroup" n (r_alternate_group r);
  rr_alternate : text_of "alternateRegister" n (r_alternate_register r);
  rr_offset : counts (2 ^ 32) "addressOffset" n (r_address_offset r);
  rr_props : props_read l n (r_properties r);
  rr_type : member (holds_word type_words) "dataType" n (r_datatype r);
  rr_effect : member (holds_word effect_words) "modifiedWriteValues" n (r_mwv r);
  rr_constraint : member constraint_read "writeConstraint" n (r_write_constraint r);
  rr_action : member (holds_word action_words) "readAction" n (r_read_action r);
  rr_fields : member (fun c => each an_element (array_read l "field" f_name (field_read m l ignore)) (children c))
                "fields" n (r_fields r);
  rr_derived : attr_of "derivedFrom" n (r_derived_from r);
  rr_ok : register_ok l r }.

Record cluster_read (l : level) (R : xml -> register_cluster -> Prop) (n : xml) (c : cluster_info_of register_cluster) : Prop := {
  kr_name : says "name" n (c_name c);
  kr_description : text_kept "description" n (c_description c);
  kr_alternate : text_kept "alternateCluster" n (c_alternate_cluster c);
  kr_header : text_kept "headerStructName" n (c_header_struct_name c);
  kr_offset : counts (2 ^ 32) "addressOffset" n (c_address_offset c);
  kr_props : props_read l n (c_default_properties c);
  kr_children : each (fun x => named "register" x \/ named "cluster" x) R (children n) (c_children c);
  kr_derived : attr_of "derivedFrom" n (c_derived_from c);
  kr_ok : cluster_ok l c }.
Inductive block_read (m : mode) (l : level) (ignore : bool) (n : xml) : register_cluster -> Prop :=
  | bk_register r : array_read l "register" r_name (register_read m l ignore) n r -> block_read m l ignore n (RCRegister r)
  | bk_cluster c : array_read l "cluster" c_name (cluster_read l (block_read m l ignore)) n c ->
      block_read m l ignore n (RCCluster c).

Record address_block_read (n : xml) (a : address_block) : Prop := {
  ab_offset_read : counts (2 ^ 32) "offset" n (ab_offset a);
  ab_size_read : counts (2 ^ 32) "size" n (ab_size a);
  ab_usage_read : the (holds_word block_words) "usage" n (ab_use a);
  ab_protection_read : member (holds_word protection_words) "protection" n (ab_protection a) }.
Record interrupt_read (n : xml) (i : interrupt) : Prop := {
  it_name_read : says "name" n (it_name i);
  it_description_read : text_of "description" n (it_description i);
  it_value_read : counts (2 ^ 32) "value" n (it_value i) }.

Record peripheral_read (m : mode) (l : level) (ignore : bool) (n : xml) (p : peripheral_info) : Prop := {
  pe_name : says "name" n (p_name p);
  pe_display : text_kept "displayName" n (p_display_name p);
  pe_version : text_kept "version" n (p_version p);
  pe_description : text_kept "description" n (p_description p);
  pe_alternate : text_kept "alternatePeripheral" n (p_alternate_peripheral p);
  pe_group : text_kept "groupName" n (p_group_name p);
  pe_prepend : text_kept "prependToName" n (p_prepend_to_name p);
  pe_append : text_kept "appendToName" n (p_append_to_name p);
  pe_header : text_kept "headerStructName" n (p_header_struct_name p);
  pe_base : counts (2 ^ 64) "baseAddress" n (p_base_address p);
  pe_props : props_read l n (p_default_properties p);
  pe_blocks : each (named "addressBlock") address_block_read (children n)
                (match p_address_block p with Some a => a | None => [] end) /\ p_address_block p <> Some [];
  pe_interrupts : each (named "interrupt") interrupt_read (children n) (p_interrupt p);
  pe_registers : member (fun c => each an_element (block_read m l ignore) (children c)) "registers" n (p_registers p);
  pe_derived : attr_of "derivedFrom" n (p_derived_from p);
  pe_ok : peripheral_ok l p }.

Record cpu_read (n : xml) (c : cpu) : Prop := {
  cu_tag : named "cpu" n;
  cu_name : says "name" n (cpu_name c);
  cu_revision : says "revision" n (cpu_revision c);
  cu_endian : the (holds_word endian_words) "endian" n (cpu_endian c);
  cu_mpu : the holds_flag "mpuPresent" n (cpu_mpu_present c);
  cu_fpu : the holds_flag "fpuPresent" n (cpu_fpu_present c);
  cu_double : member holds_flag "fpuDP" n (cpu_fpu_double_precision c);
  cu_dsp : member holds_flag "dspPresent" n (cpu_dsp_present c);
  cu_icache : member holds_flag "icachePresent" n (cpu_icache_present c);
  cu_dcache : member holds_flag "dcachePresent" n (cpu_dcache_present c);
  cu_itcm : member holds_flag "itcmPresent" n (cpu_itcm_present c);
  cu_dtcm : member holds_flag "dtcmPresent" n (cpu_dtcm_present c);
  cu_vtor : member holds_flag "vtorPresent" n (cpu_vtor_present c);
  cu_priority : counts (2 ^ 32) "nvicPrioBits" n (cpu_nvic_priority_bits c);
  cu_systick : the holds_flag "vendorSystickConfig" n (cpu_has_vendor_systick c);
  cu_interrupts : member (number (2 ^ 32)) "deviceNumInterrupts" n (cpu_device_num_interrupts c);
  cu_sau : member (number (2 ^ 32)) "sauNumRegions" n (cpu_sau_num_regions c) }.

(** What is given, or else a default that strict validation does not allow. *)
Definition or_default {A} (l : level) (R : option A -> Prop) (dflt x : A) : Prop :=
  R (Some x) \/ (l <> Strict /\ R None /\ x = dflt).
Record device_read (m : mode) (l : level) (ignore : bool) (n : xml) (d : device) : Prop := {
  de_tag_read : named "device" n;
  de_vendor : text_of "vendor" n (d_vendor d);
  de_vendor_id : text_of "vendorID" n (d_vendor_id d);
  de_name_read : says "name" n (d_name d);
  de_series : text_of "series" n (d_series d);
  de_version : or_default l (text_of "version" n) "1.0"%string (d_version d);
  de_description : or_default l (text_of "description" n) ""%string (d_description d);
  de_license : text_of "licenseText" n (d_license_text d);
  de_cpu : member cpu_read "cpu" n (d_cpu d);
  de_header_file : text_of "headerSystemFilename" n (d_header_system_filename d);
  de_header_prefix : text_of "headerDefinitionsPrefix" n (d_header_definitions_prefix d);
  de_unit : or_default l (member (number (2 ^ 32)) "addressUnitBits" n) 8 (d_address_unit_bits d);
  de_width : or_default l (member (number (2 ^ 32)) "width" n) 32 (d_width d);
  de_props : props_read l n (d_default_properties d);
  de_peripherals : the (fun c => each an_element (array_read l "peripheral" p_name (peripheral_read m l ignore)) (children c))
                     "peripherals" n (d_peripherals d);
  de_namespace : attribute "xmlns:xs" n (d_xmlns_xs d) \/
    (no_attribute "xmlns:xs" n /\ d_xmlns_xs d = "http://www.w3.org/2001/XMLSchema-instance"%string);
  (** The location is in the namespace xs, so it is read only if that is declared. *)
  de_location :
    (~ no_attribute "xmlns:xs" n /\ attribute "xs:noNamespaceSchemaLocation" n (d_no_namespace_schema_location d)) \/
    ((no_attribute "xmlns:xs" n \/ no_attribute "xs:noNamespaceSchemaLocation" n) /\
     d_no_namespace_schema_location d = "CMSIS-SVD_Schema_1_1.xsd"%string);
  de_schema : attribute "schemaVersion" n (d_schema_version d) \/
    (no_attribute "schemaVersion" n /\ d_schema_version d = "1.1"%string);
  de_ok : device_ok l d }.
