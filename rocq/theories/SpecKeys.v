(** What a serde form says, map by map (C75), and how a written form is laid out (C76). *)
From Coq Require Import List NArith String Ascii.
Import ListNotations.
From Verif Require Import Base Types Serde SpecNum SpecArray SpecText SpecSerde SpecRead SpecOrder.
Open Scope N_scope.
Open Scope list_scope.

(** ** Entries *)
Definition at_key (k : string) (es : list (string * data)) : list data :=
  map snd (filter (fun e => String.eqb (fst e) k) es).
(** One entry [k], read as [x]; likewise, unless absent or null; a list, empty if absent. *)
Definition given {A} (k : string) (R : data -> A -> Prop) (es : list (string * data)) (x : A) : Prop :=
  exists v, at_key k es = [v] /\ R v x.
Definition maybe {A} (k : string) (R : data -> A -> Prop) (es : list (string * data)) (o : option A) : Prop :=
  match o with Some x => given k R es x | None => at_key k es = [] \/ at_key k es = [DNull] end.
Definition items {A} (R : data -> A -> Prop) (v : data) (l : list A) : Prop := exists vs, v = DSeq vs /\ Forall2 R vs l.
Definition some_items {A} (k : string) (R : data -> A -> Prop) (es : list (string * data)) (l : list A) : Prop :=
  given k (items R) es l \/ (at_key k es = [] /\ l = []).
Definition text (v : data) (s : string) : Prop := v = DStr s.
Definition flag (v : data) (b : bool) : Prop := v = DBool b.
Definition amount (bound : N) (v : data) (n : N) : Prop := v = DNum n /\ n < bound.
Definition word {A} (words : list (string * A)) (v : data) (x : A) : Prop := exists s, v = DStr s /\ In (s, x) words.
Definition in_map {A} (R : list (string * data) -> A -> Prop) (v : data) (x : A) : Prop := exists es, v = DMap es /\ R es x.
(** A map, or the values of the keys [ks] one after another, of which the last may be missing. *)
Definition in_fields {A} (ks : list string) (R : list (string * data) -> A -> Prop) (v : data) (x : A) : Prop :=
  in_map R v x \/ exists vs, v = DSeq vs /\ (List.length vs <= List.length ks)%nat /\ R (combine ks vs) x.
Definition value_fields : list string := ["name"; "description"; "value"; "is_default"]%string.
Definition values_fields : list string := ["name"; "usage"; "derived_from"; "values"]%string.
Definition range_fields : list string := ["minimum"; "maximum"]%string.
Definition array_index_fields : list string := ["headerEnumName"; "values"]%string.
Definition address_block_fields : list string := ["offset"; "size"; "usage"; "protection"]%string.
Definition interrupt_fields : list string := ["name"; "description"; "value"]%string.
Definition cpu_fields : list string :=
  ["name"; "revision"; "endian"; "mpuPresent"; "fpuPresent"; "fpuDP"; "dspPresent"; "icachePresent"; "dcachePresent";
   "itcmPresent"; "dtcmPresent"; "vtorPresent"; "nvicPrioBits"; "vendorSystickConfig"; "deviceNumInterrupts";
   "sauNumRegions"]%string.
Definition type_names : list (string * data_type) :=
  [("u8", U8); ("u16", U16); ("u32", U32); ("u64", U64); ("i8", I8); ("i16", I16); ("i32", I32); ("i64", I64);
   ("u8_ptr", U8Ptr); ("u16_ptr", U16Ptr); ("u32_ptr", U32Ptr); ("u64_ptr", U64Ptr);
   ("i8_ptr", I8Ptr); ("i16_ptr", I16Ptr); ("i32_ptr", I32Ptr); ("i64_ptr", I64Ptr)]%string.

(** ** Maps *)
Record props_said (es : list (string * data)) (p : reg_props) : Prop := {
  ps_size : maybe "size" (amount (2 ^ 32)) es (rp_size p);
  ps_access : maybe "access" (word access_words) es (rp_access p);
  ps_protection : maybe "protection" (word protection_words) es (rp_protection p);
  ps_value : maybe "resetValue" (amount (2 ^ 64)) es (rp_reset_value p);
  ps_mask : maybe "resetMask" (amount (2 ^ 64)) es (rp_reset_mask p) }.
Record value_said (es : list (string * data)) (e : enumerated_value) : Prop := {
  vs_name : given "name" text es (ev_name e);
  vs_description : maybe "description" text es (ev_description e);
  vs_value : maybe "value" (amount (2 ^ 64)) es (ev_value e);
  vs_default : maybe "is_default" flag es (ev_is_default e) }.
Record values_said (es : list (string * data)) (e : enumerated_values) : Prop := {
  ss_name : maybe "name" text es (evs_name e);
  ss_usage : maybe "usage" (word usage_words) es (evs_usage e);
  ss_derived : maybe "derived_from" text es (evs_derived_from e);
  ss_values : some_items "values" (in_fields value_fields value_said) es (evs_values e) }.
Record range_said (es : list (string * data)) (r : N * N) : Prop := {
  rs_minimum : given "minimum" (amount (2 ^ 64)) es (fst r);
  rs_maximum : given "maximum" (amount (2 ^ 64)) es (snd r) }.
Inductive constraint_said : data -> write_constraint -> Prop :=
  | cs_as_read b : constraint_said (DMap [("writeAsRead"%string, DBool b)]) (WriteAsRead b)
  | cs_values b : constraint_said (DMap [("useEnumeratedValues"%string, DBool b)]) (UseEnumeratedValues b)
  | cs_range lo hi v : in_fields range_fields range_said v (lo, hi) -> constraint_said (DMap [("range"%string, v)]) (WcRange lo hi).
Record array_index_said (es : list (string * data)) (d : dim_array_index) : Prop := {
  as_name : maybe "headerEnumName" text es (dai_header_enum_name d);
  as_values : given "values" (items (in_fields value_fields value_said)) es (dai_values d) }.
(** Indexes: null, a list of texts, or one text as in a document. *)
Inductive indexes_said : data -> option (list string) -> Prop :=
  | is_null : indexes_said DNull None
  | is_list vs l : Forall2 text vs l -> indexes_said (DSeq vs) (Some l)
  | is_text s l : index_list s l -> indexes_said (DStr s) (Some l).
Record dim_said (es : list (string * data)) (d : dim_element) : Prop := {
  ds_dim : given "dim" (amount (2 ^ 32)) es (de_dim d);
  ds_increment : given "dimIncrement" (amount (2 ^ 32)) es (de_increment d);
  ds_index : given "dimIndex" indexes_said es (de_index d);
  ds_name : maybe "dimName" text es (de_name d);
  ds_array_index : maybe "dimArrayIndex" (in_fields array_index_fields array_index_said) es (de_array_index d) }.
(** A map is an array if all of its dimensions can be read. *)
Inductive array_said {A} (R : list (string * data) -> A -> Prop) : data -> maybe_array A -> Prop :=
  | as_one es i : R es i -> (forall d, ~ dim_said es d) -> array_said R (DMap es) (Single i)
  | as_many es i d : R es i -> dim_said es d -> array_said R (DMap es) (Array i d).
(** The bits: a text if there is one; else offset and width if there are; else two ends. *)
Definition as_text (es : list (string * data)) (t : string) : Prop := given "bitRange" text es t.
Definition as_size (es : list (string * data)) (o w : N) : Prop :=
  given "bitOffset" (amount (2 ^ 32)) es o /\ given "bitWidth" (amount (2 ^ 32)) es w.
Inductive bits_said (m : mode) (es : list (string * data)) : bit_range -> Prop :=
  | bs_text t h b : as_text es t -> bracketed t h (br_offset b) -> br_type b = BRT_BitRange ->
      span h (br_offset b) (br_width b) -> (m = Debug -> ~ bad_span h (br_offset b)) -> bits_said m es b
  | bs_size o w : (forall t, ~ as_text es t) -> as_size es o w ->
      bits_said m es {| br_offset := o; br_width := w; br_type := BRT_OffsetWidth |}
  | bs_ends h b : (forall t, ~ as_text es t) -> (forall o w, ~ as_size es o w) ->
      given "lsb" (amount (2 ^ 32)) es (br_offset b) -> given "msb" (amount (2 ^ 32)) es h -> br_type b = BRT_MsbLsb ->
      span h (br_offset b) (br_width b) -> (m = Debug -> ~ bad_span h (br_offset b)) -> bits_said m es b.
Record field_said (m : mode) (es : list (string * data)) (f : field_info) : Prop := {
  fs_name : given "name" text es (f_name f);
  fs_description : maybe "description" text es (f_description f);
  fs_bits : bits_said m es (f_bit_range f);
  fs_access : maybe "access" (word access_words) es (f_access f);
  fs_effect : maybe "modifiedWriteValues" (word effect_words) es (f_mwv f);
  fs_constraint : maybe "writeConstraint" constraint_said es (f_write_constraint f);
  fs_action : maybe "readAction" (word action_words) es (f_read_action f);
  fs_values : some_items "enumeratedValues" (in_fields values_fields values_said) es (f_enumerated_values f);
  fs_derived : maybe "derivedFrom" text es (f_derived_from f) }.
Record register_said (m : mode) (es : list (string * data)) (r : register_info) : Prop := {
  gs_name : given "name" text es (r_name r);
  gs_display : maybe "displayName" text es (r_display_name r);
  gs_description : maybe "description" text es (r_description r);
  gs_group : maybe "alternateGroup" text es (r_alternate_group r);
  gs_alternate : maybe "alternateRegister" text es (r_alternate_register r);
  gs_offset : given "addressOffset" (amount (2 ^ 32)) es (r_address_offset r);
  gs_props : props_said es (r_properties r);
  gs_type : maybe "datatype" (word type_names) es (r_datatype r);
  gs_effect : maybe "modifiedWriteValues" (word effect_words) es (r_mwv r);
  gs_constraint : maybe "writeConstraint" constraint_said es (r_write_constraint r);
  gs_action : maybe "readAction" (word action_words) es (r_read_action r);
  gs_fields : maybe "fields" (items (array_said (field_said m))) es (r_fields r);
  gs_derived : maybe "derivedFrom" text es (r_derived_from r) }.
Record cluster_said (R : data -> register_cluster -> Prop) (es : list (string * data)) (c : cluster_info_of register_cluster) : Prop := {
  ks_name : given "name" text es (c_name c);
  ks_description : maybe "description" text es (c_description c);
  ks_alternate : maybe "alternateCluster" text es (c_alternate_cluster c);
  ks_header : maybe "headerStructName" text es (c_header_struct_name c);
  ks_offset : given "addressOffset" (amount (2 ^ 32)) es (c_address_offset c);
  ks_props : props_said es (c_default_properties c);
  ks_children : given "children" (items R) es (c_children c);
  ks_derived : maybe "derivedFrom" text es (c_derived_from c) }.
Inductive block_said (m : mode) : data -> register_cluster -> Prop :=
  | ks_register v r : array_said (register_said m) v r -> block_said m (DMap [("register"%string, v)]) (RCRegister r)
  | ks_cluster v c : array_said (cluster_said (block_said m)) v c -> block_said m (DMap [("cluster"%string, v)]) (RCCluster c).
Record address_block_said (es : list (string * data)) (a : address_block) : Prop := {
  bs_offset : given "offset" (amount (2 ^ 32)) es (ab_offset a);
  bs_length : given "size" (amount (2 ^ 32)) es (ab_size a);
  bs_usage : given "usage" (word block_words) es (ab_use a);
  bs_protection : maybe "protection" (word protection_words) es (ab_protection a) }.
Record interrupt_said (es : list (string * data)) (i : interrupt) : Prop := {
  is_name : given "name" text es (it_name i);
  is_description : maybe "description" text es (it_description i);
  is_value : given "value" (amount (2 ^ 32)) es (it_value i) }.
Record peripheral_said (m : mode) (es : list (string * data)) (p : peripheral_info) : Prop := {
  es_name : given "name" text es (p_name p);
  es_display : maybe "displayName" text es (p_display_name p);
  es_version : maybe "version" text es (p_version p);
  es_description : maybe "description" text es (p_description p);
  es_alternate : maybe "alternatePeripheral" text es (p_alternate_peripheral p);
  es_group : maybe "groupName" text es (p_group_name p);
  es_prepend : maybe "prependToName" text es (p_prepend_to_name p);
  es_append : maybe "appendToName" text es (p_append_to_name p);
  es_header : maybe "headerStructName" text es (p_header_struct_name p);
  es_base : given "baseAddress" (amount (2 ^ 64)) es (p_base_address p);
  es_props : props_said es (p_default_properties p);
  es_blocks : maybe "addressBlock" (items (in_fields address_block_fields address_block_said)) es (p_address_block p);
  es_interrupts : some_items "interrupt" (in_fields interrupt_fields interrupt_said) es (p_interrupt p);
  es_registers : maybe "registers" (items (block_said m)) es (p_registers p);
  es_derived : maybe "derivedFrom" text es (p_derived_from p) }.
Record cpu_said (es : list (string * data)) (c : cpu) : Prop := {
  us_name : given "name" text es (cpu_name c);
  us_revision : given "revision" text es (cpu_revision c);
  us_endian : given "endian" (word endian_words) es (cpu_endian c);
  us_mpu : given "mpuPresent" flag es (cpu_mpu_present c);
  us_fpu : given "fpuPresent" flag es (cpu_fpu_present c);
  us_double : maybe "fpuDP" flag es (cpu_fpu_double_precision c);
  us_dsp : maybe "dspPresent" flag es (cpu_dsp_present c);
  us_icache : maybe "icachePresent" flag es (cpu_icache_present c);
  us_dcache : maybe "dcachePresent" flag es (cpu_dcache_present c);
  us_itcm : maybe "itcmPresent" flag es (cpu_itcm_present c);
  us_dtcm : maybe "dtcmPresent" flag es (cpu_dtcm_present c);
  us_vtor : maybe "vtorPresent" flag es (cpu_vtor_present c);
  us_priority : given "nvicPrioBits" (amount (2 ^ 32)) es (cpu_nvic_priority_bits c);
  us_systick : given "vendorSystickConfig" flag es (cpu_has_vendor_systick c);
  us_interrupts : maybe "deviceNumInterrupts" (amount (2 ^ 32)) es (cpu_device_num_interrupts c);
  us_sau : maybe "sauNumRegions" (amount (2 ^ 32)) es (cpu_sau_num_regions c) }.
Record device_said (m : mode) (es : list (string * data)) (d : device) : Prop := {
  vs_vendor : maybe "vendor" text es (d_vendor d);
  vs_vendor_id : maybe "vendorID" text es (d_vendor_id d);
  vs_device_name : given "name" text es (d_name d);
  vs_series : maybe "series" text es (d_series d);
  vs_version : given "version" text es (d_version d);
  vs_device_description : given "description" text es (d_description d);
  vs_license : maybe "licenseText" text es (d_license_text d);
  vs_cpu : maybe "cpu" (in_fields cpu_fields cpu_said) es (d_cpu d);
  vs_header_file : maybe "headerSystemFilename" text es (d_header_system_filename d);
  vs_header_prefix : maybe "headerDefinitionsPrefix" text es (d_header_definitions_prefix d);
  vs_unit : given "addressUnitBits" (amount (2 ^ 32)) es (d_address_unit_bits d);
  vs_width : given "width" (amount (2 ^ 32)) es (d_width d);
  vs_props : props_said es (d_default_properties d);
  vs_peripherals : given "peripherals" (items (array_said (peripheral_said m))) es (d_peripherals d);
  vs_header : usual_header d }.

(** ** The layout of written forms (C76) *)
Open Scope string_scope.
Open Scope list_scope.
Inductive shape := AText | AFlag | ANumber | AWord (ws : list string) | ListOf (s : shape) | SomeOf (s : shape) | AMap (t : string).
(** The keys of a map in order, each once or at most once. *)
Definition map_layout := list (string * times * shape).
Definition must (k : string) (s : shape) : map_layout := [(k, Once, s)].
Definition may (k : string) (s : shape) : map_layout := [(k, AtMostOnce, s)].
Definition a_word {A} (ws : list (string * A)) : shape := AWord (map fst ws).
Definition property_keys : map_layout :=
  may "size" ANumber ++ may "access" (a_word access_words) ++ may "protection" (a_word protection_words) ++
  may "resetValue" ANumber ++ may "resetMask" ANumber.
(** The indexes are one text. *)
Definition dimension_keys : map_layout :=
  must "dim" ANumber ++ must "dimIncrement" ANumber ++ may "dimIndex" AText ++ may "dimName" AText ++ may "dimArrayIndex" (AMap "dimArrayIndex").
Definition single_or_array (t : string) (fs : map_layout) : list (string * map_layout) := [(t, fs); (t, dimension_keys ++ fs)].
Definition field_keys (bits : map_layout) : list (string * map_layout) :=
  single_or_array "field"
    (must "name" AText ++ may "description" AText ++ bits ++ may "access" (a_word access_words) ++
     may "modifiedWriteValues" (a_word effect_words) ++ may "writeConstraint" (AMap "writeConstraint") ++
     may "readAction" (a_word action_words) ++ may "enumeratedValues" (SomeOf (AMap "enumeratedValues")) ++ may "derivedFrom" AText).
Definition layouts : list (string * map_layout) :=
  [("device",
     may "vendor" AText ++ may "vendorID" AText ++ must "name" AText ++ may "series" AText ++ must "version" AText ++
     must "description" AText ++ may "licenseText" AText ++ may "cpu" (AMap "cpu") ++ may "headerSystemFilename" AText ++
     may "headerDefinitionsPrefix" AText ++ must "addressUnitBits" ANumber ++ must "width" ANumber ++ property_keys ++
     must "peripherals" (ListOf (AMap "peripheral")));
   ("cpu",
     must "name" AText ++ must "revision" AText ++ must "endian" (a_word endian_words) ++ must "mpuPresent" AFlag ++
     must "fpuPresent" AFlag ++ may "fpuDP" AFlag ++ may "dspPresent" AFlag ++ may "icachePresent" AFlag ++ may "dcachePresent" AFlag ++
     may "itcmPresent" AFlag ++ may "dtcmPresent" AFlag ++ may "vtorPresent" AFlag ++ must "nvicPrioBits" ANumber ++
     must "vendorSystickConfig" AFlag ++ may "deviceNumInterrupts" ANumber ++ may "sauNumRegions" ANumber);
   ("addressBlock",
     must "offset" ANumber ++ must "size" ANumber ++ must "usage" (a_word block_words) ++ may "protection" (a_word protection_words));
   ("interrupt", must "name" AText ++ may "description" AText ++ must "value" ANumber);
   ("block", must "register" (AMap "register")); ("block", must "cluster" (AMap "cluster"));
   ("writeConstraint", must "writeAsRead" AFlag); ("writeConstraint", must "useEnumeratedValues" AFlag);
   ("writeConstraint", must "range" (AMap "range")); ("range", must "minimum" ANumber ++ must "maximum" ANumber);
   ("enumeratedValues",
     may "name" AText ++ may "usage" (a_word usage_words) ++ may "derived_from" AText ++ may "values" (SomeOf (AMap "enumeratedValue")));
   ("enumeratedValue", must "name" AText ++ may "description" AText ++ may "value" ANumber ++ may "is_default" AFlag);
   ("dimArrayIndex", may "headerEnumName" AText ++ must "values" (ListOf (AMap "enumeratedValue")))]
  ++ single_or_array "peripheral"
       (must "name" AText ++ may "displayName" AText ++ may "version" AText ++ may "description" AText ++
        may "alternatePeripheral" AText ++ may "groupName" AText ++ may "prependToName" AText ++ may "appendToName" AText ++
        may "headerStructName" AText ++ must "baseAddress" ANumber ++ property_keys ++
        may "addressBlock" (ListOf (AMap "addressBlock")) ++ may "interrupt" (SomeOf (AMap "interrupt")) ++
        may "registers" (ListOf (AMap "block")) ++ may "derivedFrom" AText)
  ++ single_or_array "cluster"
       (must "name" AText ++ may "description" AText ++ may "alternateCluster" AText ++ may "headerStructName" AText ++
        must "addressOffset" ANumber ++ property_keys ++ must "children" (ListOf (AMap "block")) ++ may "derivedFrom" AText)
  ++ single_or_array "register"
       (must "name" AText ++ may "displayName" AText ++ may "description" AText ++ may "alternateGroup" AText ++
        may "alternateRegister" AText ++ must "addressOffset" ANumber ++ property_keys ++ may "datatype" (a_word type_names) ++
        may "modifiedWriteValues" (a_word effect_words) ++ may "writeConstraint" (AMap "writeConstraint") ++
        may "readAction" (a_word action_words) ++ may "fields" (ListOf (AMap "field")) ++ may "derivedFrom" AText)
  ++ field_keys (must "bitRange" AText) ++ field_keys (must "lsb" ANumber ++ must "msb" ANumber)
  ++ field_keys (must "bitOffset" ANumber ++ must "bitWidth" ANumber).
Inductive laid : shape -> data -> Prop :=
  | la_text s : laid AText (DStr s)
  | la_flag b : laid AFlag (DBool b)
  | la_number n : laid ANumber (DNum n)
  | la_word ws s : In s ws -> laid (AWord ws) (DStr s)
  | la_list s l : Forall (laid s) l -> laid (ListOf s) (DSeq l)
  | la_some s l : l <> [] -> Forall (laid s) l -> laid (SomeOf s) (DSeq l)
  | la_map t fs es : In (t, fs) layouts -> laid_keys fs es -> laid (AMap t) (DMap es)
with laid_keys : map_layout -> list (string * data) -> Prop :=
  | lk_end : laid_keys [] []
  | lk_once k s fs v es : laid s v -> laid_keys fs es -> laid_keys ((k, Once, s) :: fs) ((k, v) :: es)
  | lk_absent k s fs es : laid_keys fs es -> laid_keys ((k, AtMostOnce, s) :: fs) es
  | lk_present k s fs v es : laid s v -> laid_keys fs es -> laid_keys ((k, AtMostOnce, s) :: fs) ((k, v) :: es).
