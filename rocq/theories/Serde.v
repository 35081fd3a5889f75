(** The serde implementations of svd-rs (feature serde). The serde_derive macros and
    the private flatten machinery are not in the repository; they are modelled by the
    combinators of this file, and the structs by the attributes they carry.

    Simplifications: a data format is taken to be the tree [data], with texts for keys;
    a format is taken to hand sequences to the readers of structs, as serde_json does; all
    errors are one error; if two entries of one map fail, one with an error and one with a
    panic, which comes first is not modelled. *)
From Verif Require Import Base Types Arrays.

Inductive data :=
  | DNull
  | DBool (b : bool)
  | DNum (n : N)
  | DStr (s : string)
  | DSeq (l : list data)
  | DMap (es : list (string * data)).
Definition entries : Type := list (string * data).

(** ** Derived serializers: an entry, an entry skipped if none or empty *)
Definition put_opt {A} (k : string) (f : A -> data) (o : option A) : entries :=
  match o with Some v => [(k, f v)] | None => [] end.
Definition put_list {A} (k : string) (f : A -> data) (l : list A) : entries :=
  match l with [] => [] | _ => [(k, DSeq (map f l))] end.

(** ** Derived deserializers *)
Fixpoint has_key (k : string) (es : entries) : bool :=
  match es with [] => false | (k', _) :: es' => seqb k' k || has_key k es' end.
(** The value of an entry; a second entry with the same key is an error. *)
Section Entry.
  Context {A : Type}.
  Variables (k : string) (f : data -> res A).
  Fixpoint entry (es : entries) : res (option A) :=
    match es with
    | [] => Ok None
    | (k', v) :: es' =>
        if seqb k' k then let* a := f v in if has_key k es' then Err EDeserialize else Ok (Some a)
        else entry es'
    end.
End Entry.
(** A field of a struct: required; an Option; a Vec with default *)
Definition need {A} (k : string) (f : data -> res A) (es : entries) : res A :=
  let* o := entry k f es in ok_or o EDeserialize.
Definition opt {A} (f : data -> res A) (v : data) : res (option A) :=
  match v with DNull => Ok None | _ => let* a := f v in Ok (Some a) end.
Definition take_opt {A} (k : string) (f : data -> res A) (es : entries) : res (option A) :=
  let* o := entry k (opt f) es in Ok (opt_default None o).
Definition seq_of {A} (f : data -> res A) (v : data) : res (list A) :=
  match v with DSeq l => mapM f l | _ => Err EDeserialize end.
Definition take_list {A} (k : string) (f : data -> res A) (es : entries) : res (list A) :=
  let* o := entry k (seq_of f) es in Ok (opt_default [] o).
(** Primitive types *)
Definition get_str (v : data) : res string := match v with DStr s => Ok s | _ => Err EDeserialize end.
Definition get_bool (v : data) : res bool := match v with DBool b => Ok b | _ => Err EDeserialize end.
Definition get_num (bound : N) (v : data) : res N :=
  match v with DNum n => if n <? bound then Ok n else Err EDeserialize | _ => Err EDeserialize end.
Definition get_u32 := get_num pow32.
Definition get_u64 := get_num pow64.
(** A struct with flattened fields, from a map *)
Definition struct {A} (f : entries -> res A) (v : data) : res A :=
  match v with DMap es => f es | _ => Err EDeserialize end.
(** A struct without flattened fields, from a map or from the sequence of its fields in the
    order of their declaration. A sequence may end early: what is missing then is treated
    as an absent entry, since every Option and Vec of these structs that may be absent has
    default. *)
Definition struct_of {A} (keys : list string) (f : entries -> res A) (v : data) : res A :=
  match v with
  | DMap es => f es
  | DSeq l => if Nat.leb (List.length l) (List.length keys) then f (combine keys l) else Err EDeserialize
  | _ => Err EDeserialize
  end.
(** A unit variant, by name *)
Definition variant {A} (parse : string -> option A) (v : data) : res A :=
  match v with DStr s => ok_or (parse s) EDeserialize | _ => Err EDeserialize end.

(** ** Enumerations. The serde names of access.rs:7-27, addressblock.rs:26-36,
    endian.rs:5-17, modifiedwritevalues.rs:6-36, protection.rs:10-19,
    readaction.rs:5-20 and usage.rs:6-16 are those of as_str; datatype.rs:5-41 has
    names of its own (snake_case). *)
Definition data_type_serde (t : data_type) : string :=
  match t with
  | U8 => "u8" | U16 => "u16" | U32 => "u32" | U64 => "u64"
  | I8 => "i8" | I16 => "i16" | I32 => "i32" | I64 => "i64"
  | U8Ptr => "u8_ptr" | U16Ptr => "u16_ptr" | U32Ptr => "u32_ptr" | U64Ptr => "u64_ptr"
  | I8Ptr => "i8_ptr" | I16Ptr => "i16_ptr" | I32Ptr => "i32_ptr" | I64Ptr => "i64_ptr"
  end.
Definition data_type_of_serde (s : string) : option data_type :=
  find_first (fun t => seqb (data_type_serde t) s)
    [U8; U16; U32; U64; I8; I16; I32; I64; U8Ptr; U16Ptr; U32Ptr; U64Ptr; I8Ptr; I16Ptr; I32Ptr; I64Ptr].
Definition put_access (a : access) : data := DStr (access_str a).
Definition get_access : data -> res access := variant access_parse.
Definition put_usage (a : usage) : data := DStr (usage_str a).
Definition get_usage : data -> res usage := variant usage_parse.
Definition put_protection (a : protection) : data := DStr (protection_str a).
Definition get_protection : data -> res protection := variant protection_parse.
Definition put_mwv (a : mwv) : data := DStr (mwv_str a).
Definition get_mwv : data -> res mwv := variant mwv_parse.
Definition put_read_action (a : read_action) : data := DStr (read_action_str a).
Definition get_read_action : data -> res read_action := variant read_action_parse.
Definition put_endian (a : endian) : data := DStr (endian_str a).
Definition get_endian : data -> res endian := variant endian_parse.
Definition put_ab_usage (a : ab_usage) : data := DStr (ab_usage_str a).
Definition get_ab_usage : data -> res ab_usage := variant ab_usage_parse.
Definition put_data_type (a : data_type) : data := DStr (data_type_serde a).
Definition get_data_type : data -> res data_type := variant data_type_of_serde.

(** ** RegisterProperties: registerproperties.rs:18-60 *)
Definition rp_put (p : reg_props) : entries :=
  put_opt "size" DNum (rp_size p) ++ put_opt "access" put_access (rp_access p) ++
  put_opt "protection" put_protection (rp_protection p) ++
  put_opt "resetValue" DNum (rp_reset_value p) ++ put_opt "resetMask" DNum (rp_reset_mask p).
Definition rp_get (es : entries) : res reg_props :=
  let* size := take_opt "size" get_u32 es in
  let* acc := take_opt "access" get_access es in
  let* prot := take_opt "protection" get_protection es in
  let* value := take_opt "resetValue" get_u64 es in
  let* mask := take_opt "resetMask" get_u64 es in
  Ok (RegProps size acc prot value mask).

(** ** EnumeratedValue: enumeratedvalue.rs:4-31 (no rename_all) *)
Definition ev_put (e : enumerated_value) : data :=
  DMap ([("name", DStr (ev_name e))] ++ put_opt "description" DStr (ev_description e) ++
        put_opt "value" DNum (ev_value e) ++ put_opt "is_default" DBool (ev_is_default e)).
(** The fields, enumeratedvalue.rs:7-31 *)
Definition ev_keys : list string :=
  ["name"; "description"; "value"; "is_default"].
Definition ev_get : data -> res enumerated_value := struct_of ev_keys (fun es =>
  let* name := need "name" get_str es in
  let* description := take_opt "description" get_str es in
  let* value := take_opt "value" get_u64 es in
  let* is_default := take_opt "is_default" get_bool es in
  Ok (EnumeratedValue name description value is_default)).

(** ** EnumeratedValues: enumeratedvalues.rs:4-36 (no rename_all) *)
Definition evs_put (e : enumerated_values) : data :=
  DMap (put_opt "name" DStr (evs_name e) ++ put_opt "usage" put_usage (evs_usage e) ++
        put_opt "derived_from" DStr (evs_derived_from e) ++ put_list "values" ev_put (evs_values e)).
(** The fields, enumeratedvalues.rs:7-36 *)
Definition evs_keys : list string :=
  ["name"; "usage"; "derived_from"; "values"].
Definition evs_get : data -> res enumerated_values := struct_of evs_keys (fun es =>
  let* name := take_opt "name" get_str es in
  let* usage := take_opt "usage" get_usage es in
  let* derived_from := take_opt "derived_from" get_str es in
  let* values := take_list "values" ev_get es in
  Ok (EnumeratedValues name usage derived_from values)).

(** ** WriteConstraint: writeconstraint.rs:4-29, an externally tagged enum; the fields of
    WriteConstraintRange, writeconstraint.rs:22-29 *)
Definition wc_put (w : write_constraint) : data :=
  match w with
  | WriteAsRead b => DMap [("writeAsRead", DBool b)]
  | UseEnumeratedValues b => DMap [("useEnumeratedValues", DBool b)]
  | WcRange lo hi => DMap [("range", DMap [("minimum", DNum lo); ("maximum", DNum hi)])]
  end.
Definition range_keys : list string := ["minimum"; "maximum"].
Definition wc_get (v : data) : res write_constraint :=
  match v with
  | DMap [(k, v)] =>
      if seqb k "writeAsRead" then let* b := get_bool v in Ok (WriteAsRead b)
      else if seqb k "useEnumeratedValues" then let* b := get_bool v in Ok (UseEnumeratedValues b)
      else if seqb k "range" then
        struct_of range_keys (fun es => let* lo := need "minimum" get_u64 es in let* hi := need "maximum" get_u64 es in Ok (WcRange lo hi)) v
      else Err EDeserialize
  | _ => Err EDeserialize
  end.

(** ** DimElement, DimArrayIndex: dimelement.rs:6-69 and 256-287 *)
Definition dai_put (d : dim_array_index) : data :=
  DMap (put_opt "headerEnumName" DStr (dai_header_enum_name d) ++ [("values", DSeq (map ev_put (dai_values d)))]).
(** The fields, dimelement.rs:59-69 *)
Definition dai_keys : list string :=
  ["headerEnumName"; "values"].
Definition dai_get : data -> res dim_array_index := struct_of dai_keys (fun es =>
  let* name := take_opt "headerEnumName" get_str es in
  let* values := need "values" (seq_of ev_get) es in
  Ok (DimArrayIndex name values)).
(** serialize_dim_index, dimelement.rs:281-286 *)
Definition dim_index_put (l : list string) : data := DStr (join "," l).
(** deserialize_dim_index, dimelement.rs:267-279; the untagged enum DimIndex tries a sequence of texts,
    then a text *)
Definition dim_index_get (v : data) : res (option (list string)) :=
  opt (fun v =>
    match seq_of get_str v with
    | Ok l => Ok l
    | _ => let* s := get_str v in ok_or (parse_indexes s) EDeserialize
    end) v.
Definition de_put (d : dim_element) : entries :=
  [("dim", DNum (de_dim d)); ("dimIncrement", DNum (de_increment d))] ++
  put_opt "dimIndex" dim_index_put (de_index d) ++
  put_opt "dimName" DStr (de_name d) ++ put_opt "dimArrayIndex" dai_put (de_array_index d).
(** dimIndex has deserialize_with and no default: an absent entry is an error. *)
Definition de_get (es : entries) : res dim_element :=
  let* dim := need "dim" get_u32 es in
  let* inc := need "dimIncrement" get_u32 es in
  let* idx := need "dimIndex" dim_index_get es in
  let* name := take_opt "dimName" get_str es in
  let* dai := take_opt "dimArrayIndex" dai_get es in
  Ok (DimElement dim inc idx name dai).

(** ** MaybeArray: array.rs:97-149. The flattened Option<DimElement> is None whenever
    reading a DimElement fails, for whatever reason. The entries of the dimensions are
    kept from the info, which has no keys in common with them. *)
Definition ma_put {A} (put : A -> res entries) (x : maybe_array A) : res data :=
  match x with
  | Single i => let* es := put i in Ok (DMap es)
  | Array i d => let* es := put i in Ok (DMap (de_put d ++ es))
  end.
Definition ma_get {A} (get : entries -> res A) : data -> res (maybe_array A) := struct (fun es =>
  match de_get es with
  | Panic p => Panic p
  | Err _ => let* i := get es in Ok (Single i)
  | Ok d => let* i := get es in Ok (Array i d)
  end).

(** ** BitRange: bitrange.rs:79-146, flattened into the field; the untagged enum tries
    its three variants in this order *)
Definition br_put (m : mode) (b : bit_range) : res entries :=
  match br_type b with
  | BRT_BitRange => let* t := br_text m b in Ok [("bitRange", DStr t)]
  | BRT_OffsetWidth => Ok [("bitOffset", DNum (br_offset b)); ("bitWidth", DNum (br_width b))]
  | BRT_MsbLsb => let* h := br_msb m b in Ok [("lsb", DNum (br_lsb b)); ("msb", DNum h)]
  end.
Definition br_get (m : mode) (es : entries) : res bit_range :=
  match need "bitRange" get_str es with
  | Ok t => let* o := br_from_bit_range m t in ok_or o EDeserialize
  | _ =>
    match need "bitOffset" get_u32 es, need "bitWidth" get_u32 es with
    | Ok o, Ok w => Ok (br_from_offset_width o w)
    | _, _ =>
      match need "lsb" get_u32 es, need "msb" get_u32 es with
      | Ok l, Ok h => br_from_msb_lsb m h l
      | _, _ => Err EDeserialize
      end
    end
  end.

(** ** FieldInfo: field.rs:21-85 *)
Definition field_put (m : mode) (f : field_info) : res entries :=
  let* br := br_put m (f_bit_range f) in
  Ok ([("name", DStr (f_name f))] ++ put_opt "description" DStr (f_description f) ++ br ++
      put_opt "access" put_access (f_access f) ++ put_opt "modifiedWriteValues" put_mwv (f_mwv f) ++
      put_opt "writeConstraint" wc_put (f_write_constraint f) ++
      put_opt "readAction" put_read_action (f_read_action f) ++
      put_list "enumeratedValues" evs_put (f_enumerated_values f) ++
      put_opt "derivedFrom" DStr (f_derived_from f)).
Definition field_get (m : mode) (es : entries) : res field_info :=
  let* name := need "name" get_str es in
  let* description := take_opt "description" get_str es in
  let* br := br_get m es in
  let* acc := take_opt "access" get_access es in
  let* mwv := take_opt "modifiedWriteValues" get_mwv es in
  let* wc := take_opt "writeConstraint" wc_get es in
  let* ra := take_opt "readAction" get_read_action es in
  let* evs := take_list "enumeratedValues" evs_get es in
  let* derived := take_opt "derivedFrom" get_str es in
  Ok (FieldInfo name description br acc mwv wc ra evs derived).

(** ** RegisterInfo: register.rs:21-112 *)
Definition register_put (m : mode) (r : register_info) : res entries :=
  let* fields := mapM_opt (mapM (ma_put (field_put m))) (r_fields r) in
  Ok ([("name", DStr (r_name r))] ++ put_opt "displayName" DStr (r_display_name r) ++
      put_opt "description" DStr (r_description r) ++ put_opt "alternateGroup" DStr (r_alternate_group r) ++
      put_opt "alternateRegister" DStr (r_alternate_register r) ++
      [("addressOffset", DNum (r_address_offset r))] ++ rp_put (r_properties r) ++
      put_opt "datatype" put_data_type (r_datatype r) ++ put_opt "modifiedWriteValues" put_mwv (r_mwv r) ++
      put_opt "writeConstraint" wc_put (r_write_constraint r) ++
      put_opt "readAction" put_read_action (r_read_action r) ++ put_opt "fields" DSeq fields ++
      put_opt "derivedFrom" DStr (r_derived_from r)).
Definition register_get (m : mode) (es : entries) : res register_info :=
  let* name := need "name" get_str es in
  let* display := take_opt "displayName" get_str es in
  let* description := take_opt "description" get_str es in
  let* group := take_opt "alternateGroup" get_str es in
  let* alternate := take_opt "alternateRegister" get_str es in
  let* offset := need "addressOffset" get_u32 es in
  let* props := rp_get es in
  let* datatype := take_opt "datatype" get_data_type es in
  let* mwv := take_opt "modifiedWriteValues" get_mwv es in
  let* wc := take_opt "writeConstraint" wc_get es in
  let* ra := take_opt "readAction" get_read_action es in
  let* fields := take_opt "fields" (seq_of (ma_get (field_get m))) es in
  let* derived := take_opt "derivedFrom" get_str es in
  Ok (RegisterInfo name display description group alternate offset props datatype mwv wc ra fields derived).

(** ** ClusterInfo: cluster.rs:24-74; RegisterCluster: registercluster.rs:4-16 *)
Section Cluster.
  Context {RC : Type}.
  Variables (put : RC -> res data) (get : data -> res RC).
  Definition cluster_put (c : cluster_info_of RC) : res entries :=
    let* kids := mapM put (c_children c) in
    Ok ([("name", DStr (c_name c))] ++ put_opt "description" DStr (c_description c) ++
        put_opt "alternateCluster" DStr (c_alternate_cluster c) ++
        put_opt "headerStructName" DStr (c_header_struct_name c) ++
        [("addressOffset", DNum (c_address_offset c))] ++ rp_put (c_default_properties c) ++
        [("children", DSeq kids)] ++ put_opt "derivedFrom" DStr (c_derived_from c)).
  Definition cluster_get (es : entries) : res (cluster_info_of RC) :=
    let* name := need "name" get_str es in
    let* description := take_opt "description" get_str es in
    let* alternate := take_opt "alternateCluster" get_str es in
    let* header := take_opt "headerStructName" get_str es in
    let* offset := need "addressOffset" get_u32 es in
    let* props := rp_get es in
    let* kids := need "children" (seq_of get) es in
    let* derived := take_opt "derivedFrom" get_str es in
    Ok (ClusterInfo name description alternate header offset props kids derived).
End Cluster.
Fixpoint rc_put (m : mode) (rc : register_cluster) : res data :=
  match rc with
  | RCRegister r => let* v := ma_put (register_put m) r in Ok (DMap [("register", v)])
  | RCCluster c => let* v := ma_put (cluster_put (rc_put m)) c in Ok (DMap [("cluster", v)])
  end.
Fixpoint rc_get (m : mode) (v : data) : res register_cluster :=
  match v with
  | DMap [(k, v)] =>
      if seqb k "register" then let* r := ma_get (register_get m) v in Ok (RCRegister r)
      else if seqb k "cluster" then let* c := ma_get (cluster_get (rc_get m)) v in Ok (RCCluster c)
      else Err EDeserialize
  | _ => Err EDeserialize
  end.

(** ** AddressBlock: addressblock.rs:4-20; Interrupt: interrupt.rs:4-20 *)
Definition ab_put (a : address_block) : data :=
  DMap ([("offset", DNum (ab_offset a)); ("size", DNum (ab_size a)); ("usage", put_ab_usage (ab_use a))] ++
        put_opt "protection" put_protection (ab_protection a)).
(** The fields, addressblock.rs:7-20 *)
Definition ab_keys : list string :=
  ["offset"; "size"; "usage"; "protection"].
Definition ab_get : data -> res address_block := struct_of ab_keys (fun es =>
  let* offset := need "offset" get_u32 es in
  let* size := need "size" get_u32 es in
  let* usage := need "usage" get_ab_usage es in
  let* prot := take_opt "protection" get_protection es in
  Ok (AddressBlock offset size usage prot)).
Definition it_put (i : interrupt) : data :=
  DMap ([("name", DStr (it_name i))] ++ put_opt "description" DStr (it_description i) ++ [("value", DNum (it_value i))]).
(** The fields, interrupt.rs:7-20 *)
Definition it_keys : list string :=
  ["name"; "description"; "value"].
Definition it_get : data -> res interrupt := struct_of it_keys (fun es =>
  let* name := need "name" get_str es in
  let* description := take_opt "description" get_str es in
  let* value := need "value" get_u32 es in
  Ok (Interrupt name description value)).

(** ** PeripheralInfo: peripheral.rs:24-126 *)
Definition peripheral_put (m : mode) (p : peripheral_info) : res entries :=
  let* registers := mapM_opt (mapM (rc_put m)) (p_registers p) in
  Ok ([("name", DStr (p_name p))] ++ put_opt "displayName" DStr (p_display_name p) ++
      put_opt "version" DStr (p_version p) ++ put_opt "description" DStr (p_description p) ++
      put_opt "alternatePeripheral" DStr (p_alternate_peripheral p) ++ put_opt "groupName" DStr (p_group_name p) ++
      put_opt "prependToName" DStr (p_prepend_to_name p) ++ put_opt "appendToName" DStr (p_append_to_name p) ++
      put_opt "headerStructName" DStr (p_header_struct_name p) ++ [("baseAddress", DNum (p_base_address p))] ++
      rp_put (p_default_properties p) ++
      put_opt "addressBlock" (fun l => DSeq (map ab_put l)) (p_address_block p) ++
      put_list "interrupt" it_put (p_interrupt p) ++ put_opt "registers" DSeq registers ++
      put_opt "derivedFrom" DStr (p_derived_from p)).
Definition peripheral_get (m : mode) (es : entries) : res peripheral_info :=
  let* name := need "name" get_str es in
  let* display := take_opt "displayName" get_str es in
  let* version := take_opt "version" get_str es in
  let* description := take_opt "description" get_str es in
  let* alternate := take_opt "alternatePeripheral" get_str es in
  let* group := take_opt "groupName" get_str es in
  let* prepend := take_opt "prependToName" get_str es in
  let* append := take_opt "appendToName" get_str es in
  let* header := take_opt "headerStructName" get_str es in
  let* base := need "baseAddress" get_u64 es in
  let* props := rp_get es in
  let* blocks := take_opt "addressBlock" (seq_of ab_get) es in
  let* interrupts := take_list "interrupt" it_get es in
  let* registers := take_opt "registers" (seq_of (rc_get m)) es in
  let* derived := take_opt "derivedFrom" get_str es in
  Ok (PeripheralInfo name display version description alternate group prepend append header base props blocks
        interrupts registers derived).

(** ** Cpu: cpu.rs:3-99 *)
Definition cpu_put (c : cpu) : data :=
  DMap ([("name", DStr (cpu_name c)); ("revision", DStr (cpu_revision c)); ("endian", put_endian (cpu_endian c));
         ("mpuPresent", DBool (cpu_mpu_present c)); ("fpuPresent", DBool (cpu_fpu_present c))] ++
        put_opt "fpuDP" DBool (cpu_fpu_double_precision c) ++ put_opt "dspPresent" DBool (cpu_dsp_present c) ++
        put_opt "icachePresent" DBool (cpu_icache_present c) ++ put_opt "dcachePresent" DBool (cpu_dcache_present c) ++
        put_opt "itcmPresent" DBool (cpu_itcm_present c) ++ put_opt "dtcmPresent" DBool (cpu_dtcm_present c) ++
        put_opt "vtorPresent" DBool (cpu_vtor_present c) ++
        [("nvicPrioBits", DNum (cpu_nvic_priority_bits c)); ("vendorSystickConfig", DBool (cpu_has_vendor_systick c))] ++
        put_opt "deviceNumInterrupts" DNum (cpu_device_num_interrupts c) ++
        put_opt "sauNumRegions" DNum (cpu_sau_num_regions c)).
(** The fields, cpu.rs:10-98 *)
Definition cpu_keys : list string :=
  ["name"; "revision"; "endian"; "mpuPresent"; "fpuPresent"; "fpuDP"; "dspPresent"; "icachePresent"; "dcachePresent";
   "itcmPresent"; "dtcmPresent"; "vtorPresent"; "nvicPrioBits"; "vendorSystickConfig"; "deviceNumInterrupts";
   "sauNumRegions"].
Definition cpu_get : data -> res cpu := struct_of cpu_keys (fun es =>
  let* name := need "name" get_str es in
  let* revision := need "revision" get_str es in
  let* endian := need "endian" get_endian es in
  let* mpu := need "mpuPresent" get_bool es in
  let* fpu := need "fpuPresent" get_bool es in
  let* dp := take_opt "fpuDP" get_bool es in
  let* dsp := take_opt "dspPresent" get_bool es in
  let* icache := take_opt "icachePresent" get_bool es in
  let* dcache := take_opt "dcachePresent" get_bool es in
  let* itcm := take_opt "itcmPresent" get_bool es in
  let* dtcm := take_opt "dtcmPresent" get_bool es in
  let* vtor := take_opt "vtorPresent" get_bool es in
  let* nvic := need "nvicPrioBits" get_u32 es in
  let* systick := need "vendorSystickConfig" get_bool es in
  let* interrupts := take_opt "deviceNumInterrupts" get_u32 es in
  let* regions := take_opt "sauNumRegions" get_u32 es in
  Ok (Cpu name revision endian mpu fpu dp dsp icache dcache itcm dtcm vtor nvic systick interrupts regions)).

(** ** Device: device.rs:15-121. The three attributes of the XML root are skipped: they
    are not written and get their defaults. *)
Definition device_put (m : mode) (d : device) : res data :=
  let* peripherals := mapM (ma_put (peripheral_put m)) (d_peripherals d) in
  Ok (DMap (put_opt "vendor" DStr (d_vendor d) ++ put_opt "vendorID" DStr (d_vendor_id d) ++
            [("name", DStr (d_name d))] ++ put_opt "series" DStr (d_series d) ++
            [("version", DStr (d_version d)); ("description", DStr (d_description d))] ++
            put_opt "licenseText" DStr (d_license_text d) ++ put_opt "cpu" cpu_put (d_cpu d) ++
            put_opt "headerSystemFilename" DStr (d_header_system_filename d) ++
            put_opt "headerDefinitionsPrefix" DStr (d_header_definitions_prefix d) ++
            [("addressUnitBits", DNum (d_address_unit_bits d)); ("width", DNum (d_width d))] ++
            rp_put (d_default_properties d) ++ [("peripherals", DSeq peripherals)])).
Definition device_get (m : mode) : data -> res device := struct (fun es =>
  let* vendor := take_opt "vendor" get_str es in
  let* vendor_id := take_opt "vendorID" get_str es in
  let* name := need "name" get_str es in
  let* series := take_opt "series" get_str es in
  let* version := need "version" get_str es in
  let* description := need "description" get_str es in
  let* license := take_opt "licenseText" get_str es in
  let* cpu := take_opt "cpu" cpu_get es in
  let* filename := take_opt "headerSystemFilename" get_str es in
  let* prefix := take_opt "headerDefinitionsPrefix" get_str es in
  let* unit := need "addressUnitBits" get_u32 es in
  let* width := need "width" get_u32 es in
  let* props := rp_get es in
  let* peripherals := need "peripherals" (seq_of (ma_get (peripheral_get m))) es in
  Ok (Device vendor vendor_id name series version description license cpu filename prefix unit width props peripherals
        "http://www.w3.org/2001/XMLSchema-instance" "CMSIS-SVD_Schema_1_1.xsd" "1.1")).
