(** Parse of every type: svd-parser/src/*.rs. Evaluation order follows the builder
    chains; node positions of errors are dropped. *)
From Verif Require Import Base Num Types Names Validate Builders Arrays Xml.

(** Config: svd-parser/src/lib.rs:35-52 *)
Record pconfig := PConfig {
  pc_level : level;
  pc_expand : bool;
  pc_expand_properties : bool;
  pc_ignore_enums : bool }.

(** access.rs, usage.rs, datatype.rs, modifiedwritevalues.rs, readaction.rs, protection.rs,
    endian.rs (9-13 each), addressblock.rs:28-32 *)
Definition enum_parse {A} (parse_str : string -> option A) (e : string -> err) (n : xml) : res A :=
  let* t := get_text n in ok_or (parse_str t) (e t).
Definition access_parse_node := enum_parse access_parse EUnknownAccess.
Definition usage_parse_node := enum_parse usage_parse (fun _ => EUnknownUsage).
Definition data_type_parse_node := enum_parse data_type_parse EUnknownDataType.
Definition mwv_parse_node := enum_parse mwv_parse EUnknownMwv.
Definition read_action_parse_node := enum_parse read_action_parse EUnknownReadAction.
Definition protection_parse_node := enum_parse protection_parse EUnknownProtection.
Definition endian_parse_node := enum_parse endian_parse EUnknownEndian.
Definition ab_usage_parse_node := enum_parse ab_usage_parse (fun _ => EUnknownAbUsage).

(** [map_err(|_| e)] *)
Definition map_err {A} (e : err) (r : res A) : res A := match r with Err _ => Err e | _ => r end.
(** [.ok()] on a Result *)
Definition ok_of {A} (r : res A) : res (option A) :=
  match r with Ok a => Ok (Some a) | Err _ => Ok None | Panic p => Panic p end.
(** [if !tree.has_tag_name(t) { return Err(NotExpectedTag) }] *)
Definition expect_tag (t : string) (n : xml) : res unit := check (has_tag t n) (ENotExpectedTag t).

Section Parse.
  Variable m : mode.
  Variable cfg : pconfig.

  (** registerproperties.rs:9-18 *)
  Definition rp_parse (n : xml) : res reg_props :=
    let* size := optional (num_parse pow32) "size" n in
    let* acc := optional access_parse_node "access" n in
    let* prot := optional protection_parse_node "protection" n in
    let* rv := optional (num_parse pow64) "resetValue" n in
    let* rm := optional (num_parse pow64) "resetMask" n in
    rp_build (pc_level cfg)
      {| rp_size := size; rp_access := acc; rp_protection := prot;
         rp_reset_value := rv; rp_reset_mask := rm |}.

  (** writeconstraint.rs:33-38 *)
  Definition wc_range_parse (n : xml) : res write_constraint :=
    let* min := get_child_u64 "minimum" n in
    let* max := get_child_u64 "maximum" n in
    Ok (WcRange min max).
  (** writeconstraint.rs:9-25: first_element_child().unwrap(), next_sibling_element *)
  Definition wc_parse (n : xml) : res write_constraint :=
    match filter is_element (children n) with
    | [] => Panic Unwrap
    | _ :: _ :: _ => Err EMoreThanOneWriteConstraint
    | [c] =>
        if seqb (tag c) "writeAsRead" then rmap WriteAsRead (get_child_bool (tag c) n)
        else if seqb (tag c) "useEnumeratedValues" then rmap UseEnumeratedValues (get_child_bool (tag c) n)
        else if seqb (tag c) "range" then let* e := get_child_elem (tag c) n in wc_range_parse e
        else Err EUnknownWriteConstraint
    end.

  (** The last lines of bitrange.rs (85-95) *)
  Definition bit_range_of (end_ start : N) (t : bit_range_type) : res bit_range :=
    if end_ <? start then Err EInvalidBitRangeSize
    else
      let* x := sub32 m end_ start in
      let* w := add32 m x 1 in
      Ok {| br_offset := start; br_width := w; br_type := t |}.
  (** bitrange.rs:18-95. The text of bitRange is not trimmed; [text[1..len-1]] drops the
      first and last byte. *)
  Definition bit_range_parse (n : xml) : res bit_range :=
    match get_child "bitRange" n with
    | Some range =>
        let* t := ok_or (text range) EInvalidBitRangeEmpty in
        match t with
        | String "[" rest =>
            match last_char t with
            | Some "]"%char =>
                match split ":" (drop_last rest) with
                | [] => Err EInvalidBitRangeSyntax
                | a :: more =>
                    let* msb := ok_or (parse_dec pow32 a) EInvalidBitRangeParse in
                    match more with
                    | [] => Err EInvalidBitRangeSyntax
                    | b :: _ =>
                        let* lsb := ok_or (parse_dec pow32 b) EInvalidBitRangeParse in
                        bit_range_of msb lsb BRT_BitRange
                    end
                end
            | _ => Err EInvalidBitRangeSyntax
            end
        | _ => Err EInvalidBitRangeSyntax
        end
    | None =>
        match get_child "lsb" n, get_child "msb" n with
        | Some lsb, Some msb =>
            let* h := map_err EInvalidBitRangeMsbLsb (num_parse pow32 msb) in
            let* l := map_err EInvalidBitRangeMsbLsb (num_parse pow32 lsb) in
            bit_range_of h l BRT_MsbLsb
        | _, _ =>
            match get_child "bitOffset" n, get_child "bitWidth" n with
            | Some offset, Some width =>
                let* o := map_err EInvalidBitRangeParse (num_parse pow32 offset) in
                let* w := map_err EInvalidBitRangeParse (num_parse pow32 width) in
                Ok {| br_offset := o; br_width := w; br_type := BRT_OffsetWidth |}
            | _, _ => Err EInvalidBitRangeSyntax
            end
        end
    end.

  (** enumeratedvalue.rs:9-21 *)
  Definition ev_parse (n : xml) : res enumerated_value :=
    let* _ := expect_tag "enumeratedValue" n in
    let* name := get_child_text "name" n in
    let* descr := get_child_text_opt "description" n in
    let* value := optional (num_parse pow64) "value" n in
    let* dflt := ok_of (get_child_bool "isDefault" n) in
    ev_build (pc_level cfg)
      {| evb_name := Some name; evb_description := descr; evb_value := value; evb_is_default := dflt |}.
  (** The closure of enumeratedvalues.rs:26-32 and dimelement.rs:34-40 *)
  Definition ev_item (n : xml) : res enumerated_value :=
    if has_tag "enumeratedValue" n then ev_parse n else Err (ENotExpectedTag "enumeratedValue").

  (** enumeratedvalues.rs:9-36 *)
  Definition evs_item (n : xml) : bool :=
    is_element n && negb (seqb (tag n) "name" || seqb (tag n) "headerEnumName" || seqb (tag n) "usage").
  Definition evs_parse (n : xml) : res enumerated_values :=
    let* _ := expect_tag "enumeratedValues" n in
    let* name := get_child_text_opt "name" n in
    let* use := optional usage_parse_node "usage" n in
    let* values := collect evs_item ev_item (children n) in
    evs_build (pc_level cfg)
      {| evsb_name := name; evsb_usage := use; evsb_derived_from := attr "derivedFrom" n;
         evsb_values := Some values |}.

  (** dimelement.rs:26-44 *)
  Definition dai_parse (n : xml) : res dim_array_index :=
    let* name := get_child_text_opt "headerEnumName" n in
    let* values := collect (fun t => is_element t && negb (seqb (tag t) "headerEnumName")) ev_item
                     (children n) in
    Ok {| dai_header_enum_name := name; dai_values := values |}.
  (** dimelement.rs:54-57 *)
  Definition dim_index_parse (n : xml) : res (list string) :=
    let* t := get_text n in ok_or (parse_indexes t) EDimIndexParse.
  (** dimelement.rs:9-18 *)
  Definition de_parse (n : xml) : res dim_element :=
    let* dim := get_child_u32 "dim" n in
    let* inc := get_child_u32 "dimIncrement" n in
    let* index := optional dim_index_parse "dimIndex" n in
    let* name := get_child_text_opt "dimName" n in
    let* dai := optional dai_parse "dimArrayIndex" n in
    de_build (pc_level cfg)
      {| deb_dim := Some dim; deb_increment := Some inc; deb_index := index; deb_name := name;
         deb_array_index := dai |}.

  (** array.rs:4-30, check_has_placeholder lib.rs:289-298 *)
  Definition parse_array {A} (t : string) (name : A -> string) (f : xml -> res A) (n : xml)
    : res (maybe_array A) :=
    let* _ := expect_tag t n in
    let* i := f n in
    if is_some (get_child "dimIncrement" n) then
      let* d := de_parse n in
      let* _ := check (contains "%s" (name i)) (EMissingPlaceholder (name i) t) in
      let* _ := match de_index d with
                | Some l => check (de_dim d =? len_N l) (EIncorrectDimIndexesCount (de_dim d) (len_N l))
                | None => Ok tt
                end in
      Ok (Array i d)
    else Ok (Single i).

  (** field.rs:22-57 *)
  Definition field_info_parse (n : xml) : res field_info :=
    let* _ := expect_tag "field" n in
    let* bits := bit_range_parse n in
    let* name := get_child_text "name" n in
    let* descr := get_child_text_opt "description" n in
    let* acc := optional access_parse_node "access" n in
    let* mw := optional mwv_parse_node "modifiedWriteValues" n in
    let* wc := if negb (pc_ignore_enums cfg) then optional wc_parse "writeConstraint" n else Ok None in
    let* ra := optional read_action_parse_node "readAction" n in
    let* evs := if negb (pc_ignore_enums cfg)
                then collect (has_tag "enumeratedValues") evs_parse (children n)
                else Ok [] in
    field_build (pc_level cfg)
      {| fb_name := Some name; fb_description := descr; fb_bit_range := Some bits;
         fb_bit_offset := None; fb_bit_width := None; fb_access := acc; fb_mwv := mw;
         fb_write_constraint := wc; fb_read_action := ra; fb_enumerated_values := Some evs;
         fb_derived_from := attr "derivedFrom" n |}.
  (** field.rs:12-14 *)
  Definition field_parse : xml -> res field := parse_array "field" f_name field_info_parse.

  (** register.rs:22-58 *)
  Definition register_info_parse (n : xml) : res register_info :=
    let* name := get_child_text "name" n in
    let* dname := get_child_text_opt "displayName" n in
    let* descr := get_child_text_opt "description" n in
    let* ag := get_child_text_opt "alternateGroup" n in
    let* ar := get_child_text_opt "alternateRegister" n in
    let* off := get_child_u32 "addressOffset" n in
    let* props := rp_parse n in
    let* dt := optional data_type_parse_node "dataType" n in
    let* mw := optional mwv_parse_node "modifiedWriteValues" n in
    let* wc := optional wc_parse "writeConstraint" n in
    let* ra := optional read_action_parse_node "readAction" n in
    let* fields := mapM_opt (fun fs => collect is_element field_parse (children fs))
                     (get_child "fields" n) in
    register_build (pc_level cfg)
      {| rb_name := Some name; rb_display_name := dname; rb_description := descr;
         rb_alternate_group := ag; rb_alternate_register := ar; rb_address_offset := Some off;
         rb_properties := props; rb_datatype := dt; rb_mwv := mw; rb_write_constraint := wc;
         rb_read_action := ra; rb_fields := fields; rb_derived_from := attr "derivedFrom" n |}.
  (** register.rs:12-14 *)
  Definition register_parse : xml -> res register := parse_array "register" r_name register_info_parse.

  (** cluster.rs:19-40; the parsed children are passed in *)
  Definition cluster_info_parse (kids : res (list register_cluster)) (n : xml) : res cluster_info :=
    let* name := get_child_text "name" n in
    let* descr := get_child_text_opt "description" n in
    let* alt := get_child_text_opt "alternateCluster" n in
    let* hdr := get_child_text_opt "headerStructName" n in
    let* off := get_child_u32 "addressOffset" n in
    let* props := rp_parse n in
    let* ch := kids in
    cluster_build (pc_level cfg)
      {| cb_name := Some name; cb_description := descr; cb_alternate_cluster := alt;
         cb_header_struct_name := hdr; cb_address_offset := Some off;
         cb_default_properties := props; cb_children := Some ch;
         cb_derived_from := attr "derivedFrom" n |}.
  (** registercluster.rs:10-18 with cluster.rs:9-11 *)
  Definition is_rc (n : xml) : bool := has_tag "register" n || has_tag "cluster" n.
  Fixpoint rc_parse (n : xml) : res register_cluster :=
    if seqb (tag n) "register" then rmap RCRegister (register_parse n)
    else if seqb (tag n) "cluster" then
      let kids := match n with Elem _ _ ch => collect is_rc rc_parse ch | _ => Ok [] end in
      rmap RCCluster (parse_array "cluster" c_name (cluster_info_parse kids) n)
    else Err (EInvalidRegisterCluster (tag n)).
  Definition cluster_parse (n : xml) : res cluster :=
    parse_array "cluster" c_name (cluster_info_parse (collect is_rc rc_parse (children n))) n.

  (** addressblock.rs:9-20 *)
  Definition ab_parse (n : xml) : res address_block :=
    let* o := get_child_u32 "offset" n in
    let* s := get_child_u32 "size" n in
    let* ue := get_child_elem "usage" n in
    let* u := ab_usage_parse_node ue in
    let* p := optional protection_parse_node "protection" n in
    ab_build (pc_level cfg)
      {| abb_offset := Some o; abb_size := Some s; abb_use := Some u; abb_protection := p |}.

  (** interrupt.rs:9-21 *)
  Definition it_parse (n : xml) : res interrupt :=
    let* _ := expect_tag "interrupt" n in
    let* name := get_child_text "name" n in
    let* descr := get_child_text_opt "description" n in
    let* v := get_child_u32 "value" n in
    it_build (pc_level cfg) {| itb_name := Some name; itb_description := descr; itb_value := Some v |}.

  (** peripheral.rs:21-72 *)
  Definition peripheral_info_parse (n : xml) : res peripheral_info :=
    let* _ := expect_tag "peripheral" n in
    let* name := get_child_text "name" n in
    let* dname := get_child_text_opt "displayName" n in
    let* ver := get_child_text_opt "version" n in
    let* descr := get_child_text_opt "description" n in
    let* alt := get_child_text_opt "alternatePeripheral" n in
    let* grp := get_child_text_opt "groupName" n in
    let* pre := get_child_text_opt "prependToName" n in
    let* app := get_child_text_opt "appendToName" n in
    let* hdr := get_child_text_opt "headerStructName" n in
    let* base := get_child_u64 "baseAddress" n in
    let* props := rp_parse n in
    let* ab := collect (has_tag "addressBlock") ab_parse (children n) in
    let* it := collect (has_tag "interrupt") it_parse (children n) in
    let* regs := mapM_opt (fun rs => collect is_element rc_parse (children rs))
                   (get_child "registers" n) in
    peripheral_build (pc_level cfg)
      {| pb_name := Some name; pb_display_name := dname; pb_version := ver; pb_description := descr;
         pb_alternate_peripheral := alt; pb_group_name := grp; pb_prepend_to_name := pre;
         pb_append_to_name := app; pb_header_struct_name := hdr; pb_base_address := Some base;
         pb_default_properties := props;
         pb_address_block := if is_nil ab then None else Some ab;
         pb_interrupt := Some it; pb_registers := regs; pb_derived_from := attr "derivedFrom" n |}.
  (** peripheral.rs:11-13 *)
  Definition peripheral_parse : xml -> res peripheral :=
    parse_array "peripheral" p_name peripheral_info_parse.

  (** cpu.rs:10-34 *)
  Definition cpu_parse (n : xml) : res cpu :=
    let* _ := expect_tag "cpu" n in
    let* name := get_child_text "name" n in
    let* rev := get_child_text "revision" n in
    let* ee := get_child_elem "endian" n in
    let* en := endian_parse_node ee in
    let* mpu := get_child_bool "mpuPresent" n in
    let* fpu := get_child_bool "fpuPresent" n in
    let* fdp := optional bool_parse "fpuDP" n in
    let* dsp := optional bool_parse "dspPresent" n in
    let* ic := optional bool_parse "icachePresent" n in
    let* dc := optional bool_parse "dcachePresent" n in
    let* itcm := optional bool_parse "itcmPresent" n in
    let* dtcm := optional bool_parse "dtcmPresent" n in
    let* vtor := optional bool_parse "vtorPresent" n in
    let* nvic := get_child_u32 "nvicPrioBits" n in
    let* syst := get_child_bool "vendorSystickConfig" n in
    let* dni := optional (num_parse pow32) "deviceNumInterrupts" n in
    let* sau := optional (num_parse pow32) "sauNumRegions" n in
    cpu_build (pc_level cfg)
      {| cpub_name := Some name; cpub_revision := Some rev; cpub_endian := Some en;
         cpub_mpu_present := Some mpu; cpub_fpu_present := Some fpu;
         cpub_fpu_double_precision := fdp; cpub_dsp_present := dsp; cpub_icache_present := ic;
         cpub_dcache_present := dc; cpub_itcm_present := itcm; cpub_dtcm_present := dtcm;
         cpub_vtor_present := vtor; cpub_nvic_priority_bits := Some nvic;
         cpub_has_vendor_systick := Some syst; cpub_device_num_interrupts := dni;
         cpub_sau_num_regions := sau |}.

  (** device.rs:10-60. lookup_namespace_uri(Some("xs")) on the root element is its xmlns:xs
      attribute; the attribute in that namespace is the one written with the prefix xs
      (another prefix bound to the same URI is not considered). *)
  Definition device_parse (n : xml) : res device :=
    let* _ := expect_tag "device" n in
    let* vendor := get_child_text_opt "vendor" n in
    let* vid := get_child_text_opt "vendorID" n in
    let* name := get_child_text "name" n in
    let* series := get_child_text_opt "series" n in
    let* lic := get_child_text_opt "licenseText" n in
    let* cpu := optional cpu_parse "cpu" n in
    let* hsf := get_child_text_opt "headerSystemFilename" n in
    let* hdp := get_child_text_opt "headerDefinitionsPrefix" n in
    let* props := rp_parse n in
    let* pe := get_child_elem "peripherals" n in
    let* pers := collect is_element peripheral_parse (children pe) in
    let* ver := get_child_text_opt "version" n in
    let* descr := get_child_text_opt "description" n in
    let* bits := optional (num_parse pow32) "addressUnitBits" n in
    let* width := optional (num_parse pow32) "width" n in
    let xs := attr "xmlns:xs" n in
    device_build (pc_level cfg)
      {| db_vendor := vendor; db_vendor_id := vid; db_name := Some name; db_series := series;
         db_version := ver; db_description := descr; db_license_text := lic; db_cpu := cpu;
         db_header_system_filename := hsf; db_header_definitions_prefix := hdp;
         db_address_unit_bits := bits; db_width := width; db_default_properties := props;
         db_peripherals := Some pers; db_xmlns_xs := xs;
         db_no_namespace_schema_location :=
           if is_some xs then attr "xs:noNamespaceSchemaLocation" n else None;
         db_schema_version := attr "schemaVersion" n |}.
End Parse.
