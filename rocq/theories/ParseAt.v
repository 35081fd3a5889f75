(** Where parse errors are reported: svd-parser/src/*.rs once more, with the node in every
    error ([.at(tree.id())], svd-parser/src/lib.rs:269-287). A node is given by its place,
    the positions of children from the root of the document down to it. C70_same_parser says
    that without the places this is the parser of Parse.v. *)
From Verif Require Import Base Num Types Names Validate Builders Arrays Xml Parse.

Definition place := list nat.
(** Result<T, SVDErrorAt>, or a panic *)
Inductive lres (A : Type) := LOk (a : A) | LErr (e : err) (w : place) | LPanic (p : panic).
Arguments LOk {A}. Arguments LErr {A}. Arguments LPanic {A}.
Definition lbind {A B} (r : lres A) (f : A -> lres B) : lres B :=
  match r with LOk a => f a | LErr e w => LErr e w | LPanic p => LPanic p end.
Notation "'let+' x := r 'in' b" := (lbind r (fun x => b)) (at level 200, x pattern, r at level 100, b at level 200).
Definition lmap {A B} (f : A -> B) (r : lres A) : lres B := let+ a := r in LOk (f a).
(** [map_err(|e| e.at(id))]: lib.rs:282-287 *)
Definition at_ {A} (w : place) (r : res A) : lres A :=
  match r with Ok a => LOk a | Err e => LErr e w | Panic p => LPanic p end.
(** [map_err(|_| e)] *)
Definition relabel {A} (e : err) (w : place) (r : lres A) : lres A := match r with LErr _ _ => LErr e w | _ => r end.
(** [.ok()] *)
Definition lok_of {A} (r : lres A) : lres (option A) :=
  match r with LOk a => LOk (Some a) | LErr _ _ => LOk None | LPanic p => LPanic p end.

(** The node at a place *)
Fixpoint node_at (n : xml) (w : place) : option xml :=
  match w with
  | [] => Some n
  | i :: w' => match nth_error (children n) i with Some c => node_at c w' | None => None end
  end.

(** ** svd-parser/src/elementext.rs *)
Fixpoint find_at (q : xml -> bool) (w : place) (i : nat) (l : list xml) : option (place * xml) :=
  match l with [] => None | c :: l' => if q c then Some (w ++ [i], c) else find_at q w (S i) l' end.
(** 33-38 *)
Definition get_child_at (k : string) (w : place) (n : xml) : option (place * xml) := find_at (has_tag k) w 0 (children n).
(** 71-80 *)
Definition get_text_at (w : place) (n : xml) : lres string :=
  match text n with Some s => LOk (trim s) | None => LErr (EEmptyTag (tag n)) w end.
(** 39-60 *)
Definition get_child_text_opt_at (k : string) (w : place) (n : xml) : lres (option string) :=
  match get_child_at k w n with
  | Some (v, c) =>
      match get_text_at v c with
      | LOk s => LOk (Some s)
      | LErr (EEmptyTag _) _ => LOk None
      | LErr e v => LErr e v
      | LPanic p => LPanic p
      end
  | None => LOk None
  end.
(** 61-68 *)
Definition get_child_text_at (k : string) (w : place) (n : xml) : lres string :=
  let+ o := get_child_text_opt_at k w n in at_ w (ok_or o (EMissingTag k)).
(** 83-86 *)
Definition get_child_elem_at (k : string) (w : place) (n : xml) : lres (place * xml) :=
  at_ w (ok_or (get_child_at k w n) (EMissingTag k)).
(** types.rs:8-36, 38-66, 70-86 *)
Definition num_parse_at (bound : N) (w : place) (n : xml) : lres N := let+ t := get_text_at w n in at_ w (parse_num bound t).
Definition bool_parse_at (w : place) (n : xml) : lres bool := let+ t := get_text_at w n in at_ w (parse_bool t).
(** elementext.rs:89-104 *)
Definition get_child_u32_at (k : string) (w : place) (n : xml) : lres N :=
  let+ c := get_child_elem_at k w n in num_parse_at pow32 (fst c) (snd c).
Definition get_child_u64_at (k : string) (w : place) (n : xml) : lres N :=
  let+ c := get_child_elem_at k w n in num_parse_at pow64 (fst c) (snd c).
Definition get_child_bool_at (k : string) (w : place) (n : xml) : lres bool :=
  let+ c := get_child_elem_at k w n in bool_parse_at (fst c) (snd c).
(** lib.rs:98-111 *)
Definition optional_at {A} (f : place -> xml -> lres A) (k : string) (w : place) (n : xml) : lres (option A) :=
  match get_child_at k w n with Some (v, c) => lmap Some (f v c) | None => LOk None end.
(** [tree.children().filter(q).map(f).collect()] *)
Section Collect.
  Context {A : Type}.
  Variable q : xml -> bool.
  Variable f : place -> xml -> lres A.
  Fixpoint collect_at (w : place) (i : nat) (l : list xml) : lres (list A) :=
    match l with
    | [] => LOk []
    | n :: l' =>
        if q n then let+ a := f (w ++ [i]) n in let+ r := collect_at w (S i) l' in LOk (a :: r)
        else collect_at w (S i) l'
    end.
End Collect.
Definition lcheck (w : place) (b : bool) (e : err) : lres unit := at_ w (check b e).

(** access.rs, usage.rs, datatype.rs, modifiedwritevalues.rs, readaction.rs, protection.rs,
    endian.rs (9-13 each), addressblock.rs:28-32 *)
Definition enum_at {A} (parse_str : string -> option A) (e : string -> err) (w : place) (n : xml) : lres A :=
  let+ t := get_text_at w n in at_ w (ok_or (parse_str t) (e t)).
Definition access_at := enum_at access_parse EUnknownAccess.
Definition usage_at := enum_at usage_parse (fun _ => EUnknownUsage).
Definition data_type_at := enum_at data_type_parse EUnknownDataType.
Definition mwv_at := enum_at mwv_parse EUnknownMwv.
Definition read_action_at := enum_at read_action_parse EUnknownReadAction.
Definition protection_at := enum_at protection_parse EUnknownProtection.
Definition endian_at := enum_at endian_parse EUnknownEndian.
Definition ab_usage_at := enum_at ab_usage_parse (fun _ => EUnknownAbUsage).

Section Parse.
  Variable m : mode.
  Variable cfg : pconfig.

  (** registerproperties.rs:9-18 *)
  Definition rp_at (w : place) (n : xml) : lres reg_props :=
    let+ size := optional_at (num_parse_at pow32) "size" w n in
    let+ acc := optional_at access_at "access" w n in
    let+ prot := optional_at protection_at "protection" w n in
    let+ rv := optional_at (num_parse_at pow64) "resetValue" w n in
    let+ rm := optional_at (num_parse_at pow64) "resetMask" w n in
    at_ w (rp_build (pc_level cfg)
      {| rp_size := size; rp_access := acc; rp_protection := prot; rp_reset_value := rv; rp_reset_mask := rm |}).

  (** writeconstraint.rs:33-38 *)
  Definition wc_range_at (w : place) (n : xml) : lres write_constraint :=
    let+ min := get_child_u64_at "minimum" w n in
    let+ max := get_child_u64_at "maximum" w n in
    LOk (WcRange min max).
  (** writeconstraint.rs:9-25 *)
  Definition wc_at (w : place) (n : xml) : lres write_constraint :=
    match filter is_element (children n) with
    | [] => LPanic Unwrap
    | _ :: _ :: _ => LErr EMoreThanOneWriteConstraint w
    | [c] =>
        if seqb (tag c) "writeAsRead" then lmap WriteAsRead (get_child_bool_at (tag c) w n)
        else if seqb (tag c) "useEnumeratedValues" then lmap UseEnumeratedValues (get_child_bool_at (tag c) w n)
        else if seqb (tag c) "range" then let+ e := get_child_elem_at (tag c) w n in wc_range_at (fst e) (snd e)
        else LErr EUnknownWriteConstraint w
    end.

  (** bitrange.rs:18-95: every error is at the element that has the range, not at the child *)
  Definition bit_range_at (w : place) (n : xml) : lres bit_range :=
    match get_child_at "bitRange" w n with
    | Some (_, range) =>
        let+ t := at_ w (ok_or (text range) EInvalidBitRangeEmpty) in
        match t with
        | String "[" rest =>
            match last_char t with
            | Some "]"%char =>
                match split ":" (drop_last rest) with
                | [] => LErr EInvalidBitRangeSyntax w
                | a :: more =>
                    let+ msb := at_ w (ok_or (parse_dec pow32 a) EInvalidBitRangeParse) in
                    match more with
                    | [] => LErr EInvalidBitRangeSyntax w
                    | b :: _ =>
                        let+ lsb := at_ w (ok_or (parse_dec pow32 b) EInvalidBitRangeParse) in
                        at_ w (bit_range_of m msb lsb BRT_BitRange)
                    end
                end
            | _ => LErr EInvalidBitRangeSyntax w
            end
        | _ => LErr EInvalidBitRangeSyntax w
        end
    | None =>
        match get_child_at "lsb" w n, get_child_at "msb" w n with
        | Some (wl, lsb), Some (wh, msb) =>
            let+ h := relabel EInvalidBitRangeMsbLsb w (num_parse_at pow32 wh msb) in
            let+ l := relabel EInvalidBitRangeMsbLsb w (num_parse_at pow32 wl lsb) in
            at_ w (bit_range_of m h l BRT_MsbLsb)
        | _, _ =>
            match get_child_at "bitOffset" w n, get_child_at "bitWidth" w n with
            | Some (wo, offset), Some (ww, width) =>
                let+ o := relabel EInvalidBitRangeParse w (num_parse_at pow32 wo offset) in
                let+ wd := relabel EInvalidBitRangeParse w (num_parse_at pow32 ww width) in
                LOk {| br_offset := o; br_width := wd; br_type := BRT_OffsetWidth |}
            | _, _ => LErr EInvalidBitRangeSyntax w
            end
        end
    end.

  (** [if !tree.has_tag_name(t) { return Err(NotExpectedTag) }] *)
  Definition expect_at (t : string) (w : place) (n : xml) : lres unit := lcheck w (has_tag t n) (ENotExpectedTag t).
  (** enumeratedvalue.rs:9-21 *)
  Definition ev_at (w : place) (n : xml) : lres enumerated_value :=
    let+ _ := expect_at "enumeratedValue" w n in
    let+ name := get_child_text_at "name" w n in
    let+ descr := get_child_text_opt_at "description" w n in
    let+ value := optional_at (num_parse_at pow64) "value" w n in
    let+ dflt := lok_of (get_child_bool_at "isDefault" w n) in
    at_ w (ev_build (pc_level cfg)
      {| evb_name := Some name; evb_description := descr; evb_value := value; evb_is_default := dflt |}).
  (** The closure of enumeratedvalues.rs:26-32 and dimelement.rs:34-40 *)
  Definition ev_item_at (w : place) (n : xml) : lres enumerated_value :=
    if has_tag "enumeratedValue" n then ev_at w n else LErr (ENotExpectedTag "enumeratedValue") w.
  (** enumeratedvalues.rs:9-36 *)
  Definition evs_at (w : place) (n : xml) : lres enumerated_values :=
    let+ _ := expect_at "enumeratedValues" w n in
    let+ name := get_child_text_opt_at "name" w n in
    let+ use := optional_at usage_at "usage" w n in
    let+ values := collect_at evs_item ev_item_at w 0 (children n) in
    at_ w (evs_build (pc_level cfg)
      {| evsb_name := name; evsb_usage := use; evsb_derived_from := attr "derivedFrom" n; evsb_values := Some values |}).

  (** dimelement.rs:26-44 *)
  Definition dai_at (w : place) (n : xml) : lres dim_array_index :=
    let+ name := get_child_text_opt_at "headerEnumName" w n in
    let+ values := collect_at (fun t => is_element t && negb (seqb (tag t) "headerEnumName")) ev_item_at w 0 (children n) in
    LOk {| dai_header_enum_name := name; dai_values := values |}.
  (** dimelement.rs:54-57 *)
  Definition dim_index_at (w : place) (n : xml) : lres (list string) :=
    let+ t := get_text_at w n in at_ w (ok_or (parse_indexes t) EDimIndexParse).
  (** dimelement.rs:9-18 *)
  Definition de_at (w : place) (n : xml) : lres dim_element :=
    let+ dim := get_child_u32_at "dim" w n in
    let+ inc := get_child_u32_at "dimIncrement" w n in
    let+ index := optional_at dim_index_at "dimIndex" w n in
    let+ name := get_child_text_opt_at "dimName" w n in
    let+ dai := optional_at dai_at "dimArrayIndex" w n in
    at_ w (de_build (pc_level cfg)
      {| deb_dim := Some dim; deb_increment := Some inc; deb_index := index; deb_name := name; deb_array_index := dai |}).
  (** array.rs:4-30, check_has_placeholder lib.rs:289-298 *)
  Definition array_at {A} (t : string) (name : A -> string) (f : place -> xml -> lres A) (w : place) (n : xml)
    : lres (maybe_array A) :=
    let+ _ := expect_at t w n in
    let+ i := f w n in
    if is_some (get_child_at "dimIncrement" w n) then
      let+ d := de_at w n in
      let+ _ := lcheck w (contains "%s" (name i)) (EMissingPlaceholder (name i) t) in
      let+ _ := match de_index d with
                | Some l => lcheck w (de_dim d =? len_N l) (EIncorrectDimIndexesCount (de_dim d) (len_N l))
                | None => LOk tt
                end in
      LOk (Array i d)
    else LOk (Single i).

  (** field.rs:22-57 *)
  Definition field_info_at (w : place) (n : xml) : lres field_info :=
    let+ _ := expect_at "field" w n in
    let+ bits := bit_range_at w n in
    let+ name := get_child_text_at "name" w n in
    let+ descr := get_child_text_opt_at "description" w n in
    let+ acc := optional_at access_at "access" w n in
    let+ mw := optional_at mwv_at "modifiedWriteValues" w n in
    let+ wc := if negb (pc_ignore_enums cfg) then optional_at wc_at "writeConstraint" w n else LOk None in
    let+ ra := optional_at read_action_at "readAction" w n in
    let+ evs := if negb (pc_ignore_enums cfg)
                then collect_at (has_tag "enumeratedValues") evs_at w 0 (children n)
                else LOk [] in
    at_ w (field_build (pc_level cfg)
      {| fb_name := Some name; fb_description := descr; fb_bit_range := Some bits;
         fb_bit_offset := None; fb_bit_width := None; fb_access := acc; fb_mwv := mw;
         fb_write_constraint := wc; fb_read_action := ra; fb_enumerated_values := Some evs;
         fb_derived_from := attr "derivedFrom" n |}).
  (** field.rs:12-14 *)
  Definition field_at : place -> xml -> lres field := array_at "field" f_name field_info_at.

  (** register.rs:22-58 *)
  Definition register_info_at (w : place) (n : xml) : lres register_info :=
    let+ name := get_child_text_at "name" w n in
    let+ dname := get_child_text_opt_at "displayName" w n in
    let+ descr := get_child_text_opt_at "description" w n in
    let+ ag := get_child_text_opt_at "alternateGroup" w n in
    let+ ar := get_child_text_opt_at "alternateRegister" w n in
    let+ off := get_child_u32_at "addressOffset" w n in
    let+ props := rp_at w n in
    let+ dt := optional_at data_type_at "dataType" w n in
    let+ mw := optional_at mwv_at "modifiedWriteValues" w n in
    let+ wc := optional_at wc_at "writeConstraint" w n in
    let+ ra := optional_at read_action_at "readAction" w n in
    let+ fields := optional_at (fun v fs => collect_at is_element field_at v 0 (children fs)) "fields" w n in
    at_ w (register_build (pc_level cfg)
      {| rb_name := Some name; rb_display_name := dname; rb_description := descr;
         rb_alternate_group := ag; rb_alternate_register := ar; rb_address_offset := Some off;
         rb_properties := props; rb_datatype := dt; rb_mwv := mw; rb_write_constraint := wc;
         rb_read_action := ra; rb_fields := fields; rb_derived_from := attr "derivedFrom" n |}).
  (** register.rs:12-14 *)
  Definition register_at : place -> xml -> lres register := array_at "register" r_name register_info_at.

  (** cluster.rs:19-40; the parsed children are passed in *)
  Definition cluster_info_at (kids : lres (list register_cluster)) (w : place) (n : xml) : lres cluster_info :=
    let+ name := get_child_text_at "name" w n in
    let+ descr := get_child_text_opt_at "description" w n in
    let+ alt := get_child_text_opt_at "alternateCluster" w n in
    let+ hdr := get_child_text_opt_at "headerStructName" w n in
    let+ off := get_child_u32_at "addressOffset" w n in
    let+ props := rp_at w n in
    let+ ch := kids in
    at_ w (cluster_build (pc_level cfg)
      {| cb_name := Some name; cb_description := descr; cb_alternate_cluster := alt;
         cb_header_struct_name := hdr; cb_address_offset := Some off;
         cb_default_properties := props; cb_children := Some ch; cb_derived_from := attr "derivedFrom" n |}).
  (** registercluster.rs:10-18 with cluster.rs:9-11 *)
  Fixpoint rc_at (w : place) (n : xml) {struct n} : lres register_cluster :=
    if seqb (tag n) "register" then lmap RCRegister (register_at w n)
    else if seqb (tag n) "cluster" then
      let kids := match n with Elem _ _ ch => collect_at is_rc rc_at w 0 ch | _ => LOk [] end in
      lmap RCCluster (array_at "cluster" c_name (cluster_info_at kids) w n)
    else LErr (EInvalidRegisterCluster (tag n)) w.

  (** addressblock.rs:9-20 *)
  Definition ab_at (w : place) (n : xml) : lres address_block :=
    let+ o := get_child_u32_at "offset" w n in
    let+ s := get_child_u32_at "size" w n in
    let+ ue := get_child_elem_at "usage" w n in
    let+ u := ab_usage_at (fst ue) (snd ue) in
    let+ p := optional_at protection_at "protection" w n in
    at_ w (ab_build (pc_level cfg) {| abb_offset := Some o; abb_size := Some s; abb_use := Some u; abb_protection := p |}).
  (** interrupt.rs:9-21 *)
  Definition it_at (w : place) (n : xml) : lres interrupt :=
    let+ _ := expect_at "interrupt" w n in
    let+ name := get_child_text_at "name" w n in
    let+ descr := get_child_text_opt_at "description" w n in
    let+ v := get_child_u32_at "value" w n in
    at_ w (it_build (pc_level cfg) {| itb_name := Some name; itb_description := descr; itb_value := Some v |}).

  (** peripheral.rs:21-72 *)
  Definition peripheral_info_at (w : place) (n : xml) : lres peripheral_info :=
    let+ _ := expect_at "peripheral" w n in
    let+ name := get_child_text_at "name" w n in
    let+ dname := get_child_text_opt_at "displayName" w n in
    let+ ver := get_child_text_opt_at "version" w n in
    let+ descr := get_child_text_opt_at "description" w n in
    let+ alt := get_child_text_opt_at "alternatePeripheral" w n in
    let+ grp := get_child_text_opt_at "groupName" w n in
    let+ pre := get_child_text_opt_at "prependToName" w n in
    let+ app := get_child_text_opt_at "appendToName" w n in
    let+ hdr := get_child_text_opt_at "headerStructName" w n in
    let+ base := get_child_u64_at "baseAddress" w n in
    let+ props := rp_at w n in
    let+ ab := collect_at (has_tag "addressBlock") ab_at w 0 (children n) in
    let+ it := collect_at (has_tag "interrupt") it_at w 0 (children n) in
    let+ regs := optional_at (fun v rs => collect_at is_element rc_at v 0 (children rs)) "registers" w n in
    at_ w (peripheral_build (pc_level cfg)
      {| pb_name := Some name; pb_display_name := dname; pb_version := ver; pb_description := descr;
         pb_alternate_peripheral := alt; pb_group_name := grp; pb_prepend_to_name := pre;
         pb_append_to_name := app; pb_header_struct_name := hdr; pb_base_address := Some base;
         pb_default_properties := props;
         pb_address_block := if is_nil ab then None else Some ab;
         pb_interrupt := Some it; pb_registers := regs; pb_derived_from := attr "derivedFrom" n |}).
  (** peripheral.rs:11-13 *)
  Definition peripheral_at : place -> xml -> lres peripheral := array_at "peripheral" p_name peripheral_info_at.

  (** cpu.rs:10-34 *)
  Definition cpu_at (w : place) (n : xml) : lres cpu :=
    let+ _ := expect_at "cpu" w n in
    let+ name := get_child_text_at "name" w n in
    let+ rev := get_child_text_at "revision" w n in
    let+ ee := get_child_elem_at "endian" w n in
    let+ en := endian_at (fst ee) (snd ee) in
    let+ mpu := get_child_bool_at "mpuPresent" w n in
    let+ fpu := get_child_bool_at "fpuPresent" w n in
    let+ fdp := optional_at bool_parse_at "fpuDP" w n in
    let+ dsp := optional_at bool_parse_at "dspPresent" w n in
    let+ ic := optional_at bool_parse_at "icachePresent" w n in
    let+ dc := optional_at bool_parse_at "dcachePresent" w n in
    let+ itcm := optional_at bool_parse_at "itcmPresent" w n in
    let+ dtcm := optional_at bool_parse_at "dtcmPresent" w n in
    let+ vtor := optional_at bool_parse_at "vtorPresent" w n in
    let+ nvic := get_child_u32_at "nvicPrioBits" w n in
    let+ syst := get_child_bool_at "vendorSystickConfig" w n in
    let+ dni := optional_at (num_parse_at pow32) "deviceNumInterrupts" w n in
    let+ sau := optional_at (num_parse_at pow32) "sauNumRegions" w n in
    at_ w (cpu_build (pc_level cfg)
      {| cpub_name := Some name; cpub_revision := Some rev; cpub_endian := Some en;
         cpub_mpu_present := Some mpu; cpub_fpu_present := Some fpu;
         cpub_fpu_double_precision := fdp; cpub_dsp_present := dsp; cpub_icache_present := ic;
         cpub_dcache_present := dc; cpub_itcm_present := itcm; cpub_dtcm_present := dtcm;
         cpub_vtor_present := vtor; cpub_nvic_priority_bits := Some nvic;
         cpub_has_vendor_systick := Some syst; cpub_device_num_interrupts := dni;
         cpub_sau_num_regions := sau |}).

  (** device.rs:10-60 *)
  Definition device_at (w : place) (n : xml) : lres device :=
    let+ _ := expect_at "device" w n in
    let+ vendor := get_child_text_opt_at "vendor" w n in
    let+ vid := get_child_text_opt_at "vendorID" w n in
    let+ name := get_child_text_at "name" w n in
    let+ series := get_child_text_opt_at "series" w n in
    let+ lic := get_child_text_opt_at "licenseText" w n in
    let+ cpu := optional_at cpu_at "cpu" w n in
    let+ hsf := get_child_text_opt_at "headerSystemFilename" w n in
    let+ hdp := get_child_text_opt_at "headerDefinitionsPrefix" w n in
    let+ props := rp_at w n in
    let+ pe := get_child_elem_at "peripherals" w n in
    let+ pers := collect_at is_element peripheral_at (fst pe) 0 (children (snd pe)) in
    let+ ver := get_child_text_opt_at "version" w n in
    let+ descr := get_child_text_opt_at "description" w n in
    let+ bits := optional_at (num_parse_at pow32) "addressUnitBits" w n in
    let+ width := optional_at (num_parse_at pow32) "width" w n in
    let xs := attr "xmlns:xs" n in
    at_ w (device_build (pc_level cfg)
      {| db_vendor := vendor; db_vendor_id := vid; db_name := Some name; db_series := series;
         db_version := ver; db_description := descr; db_license_text := lic; db_cpu := cpu;
         db_header_system_filename := hsf; db_header_definitions_prefix := hdp;
         db_address_unit_bits := bits; db_width := width; db_default_properties := props;
         db_peripherals := Some pers; db_xmlns_xs := xs;
         db_no_namespace_schema_location :=
           if is_some xs then attr "xs:noNamespaceSchemaLocation" n else None;
         db_schema_version := attr "schemaVersion" n |}).

  (** ** The report: svd-parser/src/lib.rs:119-172 *)

  (** get_name, 120-124 *)
  Definition get_name (n : xml) : option string :=
    match find_first (has_tag "name") (children n) with Some t => text t | None => None end.
  (** The context of the node itself, 139-147; [pos] shows the position of a place in the text *)
  Definition node_line (pos : place -> string) (w : place) (n : xml) : string :=
    (if str_empty (tag n) then "at " ++ pos w
     else match get_name n with
          | Some name => "Parsing " ++ tag n ++ " `" ++ name ++ "` at " ++ pos w
          | None => "Parsing unknown " ++ tag n ++ " at " ++ pos w
          end)%string.
  (** The context of an enclosing node, 152-164 *)
  Definition parent_line (n : xml) : list string :=
    if existsb (seqb (tag n)) ["device"; "peripheral"; "register"; "field"; "enumeratedValue"; "interrupt"] then
      [match get_name n with
       | Some name => "In " ++ tag n ++ " `" ++ name ++ "`"
       | None => "In unknown " ++ tag n
       end]%string
    else [].
  (** [node.ancestors().skip(1)]: the places above, innermost first, the root last; given the
      place reversed *)
  Fixpoint above (rw : list nat) : list place := match rw with [] => [] | _ :: r => rev r :: above r end.
  (** The loop of 148-165 *)
  Fixpoint parent_lines (root : xml) (ws : list place) : list string :=
    match ws with
    | [] => []
    | [] :: _ => []
    | w :: ws' => match node_at root w with Some n => parent_line n | None => [] end ++ parent_lines root ws'
    end.
  (** 128-167: the contexts in the order they are added, so the last is shown first *)
  Definition parse_document (pos : place -> string) (root : xml) : res (device + err * list string) :=
    match get_child_at "device" [] root with
    | None => Ok (inr (EMissingTag "device", []))
    | Some (w, x) =>
        match device_at w x with
        | LOk d => Ok (inl d)
        | LPanic p => Panic p
        | LErr e v =>
            match node_at root v with
            | None => Panic Unwrap
            | Some n => Ok (inr (e, node_line pos v n :: parent_lines root (above (rev v))))
            end
        end
    end.
End Parse.
