(** Encode / EncodeChildren of every type: svd-encoder/src/*.rs. EncodeError has no
    values, so the only non-Ok outcome is a panic. *)
From Verif Require Import Base Num Types Arrays Config Sort Xml.

Section Encode.
  (** Build mode, case conversion of names (external crate), configuration. *)
  Variable m : mode.
  Variable conv : id_format -> string -> string.
  Variable cfg : config.

  Definition cc (case : option id_format) (s : string) : string := change_case conv s case.
  (** [format!("{}", b)] for bool *)
  Definition bool_text (b : bool) : string := if b then "true" else "false".
  (** [format!("{}", n)] *)
  Definition dec_node (name : string) (n : N) : xml := new_node name (to_string n).
  Definition num_node (name : string) (f : number_format) (n : N) : xml := new_node name (format_number n f).
  Definition bool_node (name : string) (b : bool) : xml := new_node name (bool_text b).

  (** Enumerations: an element holding as_str. access.rs, usage.rs, datatype.rs,
      modifiedwritevalues.rs, readaction.rs, protection.rs, endian.rs (6-10 each),
      addressblock.rs:29-33 *)
  Definition access_encode (x : access) : xml := new_node "access" (access_str x).
  Definition usage_encode (x : usage) : xml := new_node "usage" (usage_str x).
  Definition data_type_encode (x : data_type) : xml := new_node "dataType" (data_type_str x).
  Definition mwv_encode (x : mwv) : xml := new_node "modifiedWriteValues" (mwv_str x).
  Definition read_action_encode (x : read_action) : xml := new_node "readAction" (read_action_str x).
  Definition protection_encode (x : protection) : xml := new_node "protection" (protection_str x).
  Definition endian_encode (x : endian) : xml := new_node "endian" (endian_str x).
  Definition ab_usage_encode (x : ab_usage) : xml := new_node "usage" (ab_usage_str x).

  (** registerproperties.rs:8-38 *)
  Definition rp_encode (p : reg_props) : list xml :=
    opt_node (num_node "size" (cfg_register_size cfg)) (rp_size p)
    ++ opt_node access_encode (rp_access p)
    ++ opt_node protection_encode (rp_protection p)
    ++ opt_node (num_node "resetValue" (cfg_register_reset_value cfg)) (rp_reset_value p)
    ++ opt_node (num_node "resetMask" (cfg_register_reset_mask cfg)) (rp_reset_mask p).

  (** writeconstraint.rs:8-34 *)
  Definition wc_encode (w : write_constraint) : xml :=
    Elem "writeConstraint" []
      [match w with
       | WriteAsRead b => bool_node "writeAsRead" b
       | UseEnumeratedValues b => bool_node "useEnumeratedValues" b
       | WcRange min max => Elem "range" [] [dec_node "minimum" min; dec_node "maximum" max]
       end].

  (** bitrange.rs:8-26 *)
  Definition bit_range_encode (b : bit_range) : res (list xml) :=
    match opt_default (br_type b) (cfg_field_bit_range cfg) with
    | BRT_BitRange => let* t := br_text m b in Ok [new_node "bitRange" t]
    | BRT_MsbLsb => let* h := br_msb m b in Ok [dec_node "lsb" (br_lsb b); dec_node "msb" h]
    | BRT_OffsetWidth => Ok [dec_node "bitOffset" (br_offset b); dec_node "bitWidth" (br_width b)]
    end.

  (** enumeratedvalue.rs:11-34 *)
  Definition ev_encode (e : enumerated_value) : xml :=
    Elem "enumeratedValue" []
      ([new_node "name" (cc (cfg_enumerated_value_name cfg) (ev_name e))]
       ++ opt_node (new_node "description") (ev_description e)
       ++ opt_node (num_node "value" (cfg_enumerated_value_value cfg)) (ev_value e)
       ++ opt_node (bool_node "isDefault") (ev_is_default e)).

  (** enumeratedvalues.rs:8-34 *)
  Definition evs_encode (e : enumerated_values) : xml :=
    Elem "enumeratedValues"
      (derived_attr (cc (cfg_enumerated_values_name cfg)) (evs_derived_from e))
      (opt_node (fun n => new_node "name" (cc (cfg_enumerated_values_name cfg) n)) (evs_name e)
       ++ opt_node usage_encode (evs_usage e)
       ++ map ev_encode (evs_values e)).

  (** dimelement.rs:42-57 *)
  Definition dai_encode (d : dim_array_index) : xml :=
    Elem "dimArrayIndex" []
      (opt_node (fun n => new_node "headerEnumName" (cc (cfg_dim_array_index_header_enum_name cfg) n))
         (dai_header_enum_name d)
       ++ map ev_encode (dai_values d)).
  (** dimelement.rs:8-36 *)
  Definition de_encode (d : dim_element) : res xml :=
    let* index :=
      match de_index d with
      | None => Ok []
      | Some di =>
          let* r := indexes_as_range m d in
          Ok [new_node "dimIndex"
                (match r with
                 | Some (a, b) => (to_string a ++ "-" ++ to_string b)%string
                 | None => join "," di
                 end)]
      end in
    Ok (Elem "dimElement" []
          ([num_node "dim" (cfg_dim_dim cfg) (de_dim d);
            num_node "dimIncrement" (cfg_dim_increment cfg) (de_increment d)]
           ++ index
           ++ opt_node (new_node "dimName") (de_name d)
           ++ opt_node dai_encode (de_array_index d))).

  (** Encode for Field, Register, Cluster, Peripheral (field.rs:10-20, register.rs:15-25,
      cluster.rs:13-23, peripheral.rs:15-25) *)
  Definition ma_encode {A} (t : string) (f : A -> res xml) (x : maybe_array A) : res xml :=
    match x with
    | Single a => f a
    | Array a d =>
        let* de := de_encode d in
        let* e := f a in
        Ok (merge (merge (Elem t [] []) de) e)
    end.

  (** field.rs:26-71 *)
  Definition field_info_encode (f : field_info) : res xml :=
    let* bits := bit_range_encode (f_bit_range f) in
    Ok (Elem "field" (derived_attr (cc (cfg_field_name cfg)) (f_derived_from f))
          ([new_node "name" (cc (cfg_field_name cfg) (f_name f))]
           ++ opt_node (new_node "description") (f_description f)
           ++ bits
           ++ opt_node access_encode (f_access f)
           ++ opt_node mwv_encode (f_mwv f)
           ++ opt_node wc_encode (f_write_constraint f)
           ++ opt_node read_action_encode (f_read_action f)
           ++ map evs_encode (f_enumerated_values f))).
  Definition field_encode : field -> res xml := ma_encode "field" field_info_encode.

  (** register.rs:31-111. The branch for the unchanged order equals sorting by nothing. *)
  Definition register_info_encode (r : register_info) : res xml :=
    let* fields :=
      match r_fields r with
      | None => Ok []
      | Some v =>
          let* sorted := sort_fields m (cfg_field_sorting cfg) v in
          let* ch := mapM field_encode sorted in
          Ok (if is_nil ch then [] else [Elem "fields" [] ch])
      end in
    Ok (Elem "register" (derived_attr (cc (cfg_register_name cfg)) (r_derived_from r))
          ([new_node "name" (cc (cfg_register_name cfg) (r_name r))]
           ++ opt_node (new_node "displayName") (r_display_name r)
           ++ opt_node (new_node "description") (r_description r)
           ++ opt_node (new_node "alternateGroup") (r_alternate_group r)
           ++ opt_node (fun v => new_node "alternateRegister" (cc (cfg_register_name cfg) v))
                (r_alternate_register r)
           ++ [num_node "addressOffset" (cfg_register_address_offset cfg) (r_address_offset r)]
           ++ rp_encode (r_properties r)
           ++ opt_node data_type_encode (r_datatype r)
           ++ opt_node mwv_encode (r_mwv r)
           ++ opt_node wc_encode (r_write_constraint r)
           ++ opt_node read_action_encode (r_read_action r)
           ++ fields)).
  Definition register_encode : register -> res xml := ma_encode "register" register_info_encode.

  (** cluster.rs:29-75; the encoded children are passed in *)
  Definition cluster_info_encode (kids : res (list xml)) (c : cluster_info) : res xml :=
    let* ch := kids in
    Ok (Elem "cluster" (derived_attr (cc (cfg_cluster_name cfg)) (c_derived_from c))
          ([new_node "name" (cc (cfg_cluster_name cfg) (c_name c))]
           ++ opt_node (new_node "description") (c_description c)
           ++ opt_node (fun v => new_node "alternateCluster" (cc (cfg_cluster_name cfg) v))
                (c_alternate_cluster c)
           ++ opt_node (new_node "headerStructName") (c_header_struct_name c)
           ++ [num_node "addressOffset" (cfg_cluster_address_offset cfg) (c_address_offset c)]
           ++ rp_encode (c_default_properties c)
           ++ ch)).
  (** registercluster.rs:8-13 *)
  Fixpoint rc_encode (rc : register_cluster) : res xml :=
    match rc with
    | RCRegister r => register_encode r
    | RCCluster c =>
        ma_encode "cluster" (cluster_info_encode (mapM rc_encode (c_children (info c)))) c
    end.
  Definition cluster_encode (c : cluster) : res xml := rc_encode (RCCluster c).

  (** addressblock.rs:8-23 *)
  Definition ab_encode (a : address_block) : xml :=
    Elem "addressBlock" []
      ([num_node "offset" (cfg_address_block_offset cfg) (ab_offset a);
        num_node "size" (cfg_address_block_size cfg) (ab_size a);
        ab_usage_encode (ab_use a)]
       ++ opt_node protection_encode (ab_protection a)).

  (** interrupt.rs:8-20 *)
  Definition it_encode (i : interrupt) : xml :=
    Elem "interrupt" []
      ([new_node "name" (cc (cfg_interrupt_name cfg) (it_name i))]
       ++ opt_node (new_node "description") (it_description i)
       ++ [dec_node "value" (it_value i)]).

  (** peripheral.rs:31-139 *)
  Definition peripheral_info_encode (p : peripheral_info) : res xml :=
    let* registers :=
      match p_registers p with
      | None => Ok []
      | Some v =>
          let* sorted := sort_registers m (cfg_register_cluster_sorting cfg) v in
          let* ch := mapM rc_encode sorted in
          Ok [Elem "registers" [] ch]
      end in
    let name v := cc (cfg_peripheral_name cfg) v in
    Ok (Elem "peripheral" (derived_attr name (p_derived_from p))
          ([new_node "name" (name (p_name p))]
           ++ opt_node (new_node "displayName") (p_display_name p)
           ++ opt_node (new_node "version") (p_version p)
           ++ opt_node (new_node "description") (p_description p)
           ++ opt_node (fun v => new_node "alternatePeripheral" (name v)) (p_alternate_peripheral p)
           ++ opt_node (new_node "groupName") (p_group_name p)
           ++ opt_node (fun v => new_node "prependToName" (name v)) (p_prepend_to_name p)
           ++ opt_node (fun v => new_node "appendToName" (name v)) (p_append_to_name p)
           ++ opt_node (fun v => new_node "headerStructName" (name v)) (p_header_struct_name p)
           ++ [num_node "baseAddress" (cfg_peripheral_base_address cfg) (p_base_address p)]
           ++ rp_encode (p_default_properties p)
           ++ map ab_encode (opt_default [] (p_address_block p))
           ++ map it_encode (p_interrupt p)
           ++ registers)).
  Definition peripheral_encode : peripheral -> res xml := ma_encode "peripheral" peripheral_info_encode.

  (** cpu.rs:7-55 *)
  Definition cpu_encode (c : cpu) : xml :=
    Elem "cpu" []
      ([new_node "name" (cpu_name c);
        new_node "revision" (cpu_revision c);
        endian_encode (cpu_endian c);
        bool_node "mpuPresent" (cpu_mpu_present c);
        bool_node "fpuPresent" (cpu_fpu_present c)]
       ++ opt_node (bool_node "fpuDP") (cpu_fpu_double_precision c)
       ++ opt_node (bool_node "dspPresent") (cpu_dsp_present c)
       ++ opt_node (bool_node "icachePresent") (cpu_icache_present c)
       ++ opt_node (bool_node "dcachePresent") (cpu_dcache_present c)
       ++ opt_node (bool_node "itcmPresent") (cpu_itcm_present c)
       ++ opt_node (bool_node "dtcmPresent") (cpu_dtcm_present c)
       ++ opt_node (bool_node "vtorPresent") (cpu_vtor_present c)
       ++ [dec_node "nvicPrioBits" (cpu_nvic_priority_bits c);
           bool_node "vendorSystickConfig" (cpu_has_vendor_systick c)]
       ++ opt_node (dec_node "deviceNumInterrupts") (cpu_device_num_interrupts c)
       ++ opt_node (dec_node "sauNumRegions") (cpu_sau_num_regions c)).

  (** device.rs:12-94 *)
  Definition device_encode (d : device) : res xml :=
    let* sorted := sort_peripherals m (cfg_peripheral_sorting cfg) (d_peripherals d) in
    let* pers := mapM peripheral_encode sorted in
    Ok (Elem "device"
          [("schemaVersion", d_schema_version d);
           ("xmlns:xs", d_xmlns_xs d);
           ("xs:noNamespaceSchemaLocation", d_no_namespace_schema_location d)]
          (opt_node (new_node "vendor") (d_vendor d)
           ++ opt_node (new_node "vendorID") (d_vendor_id d)
           ++ [new_node "name" (d_name d)]
           ++ opt_node (new_node "series") (d_series d)
           ++ [new_node "version" (d_version d);
               new_node "description" (d_description d)]
           ++ opt_node (new_node "licenseText") (d_license_text d)
           ++ opt_node cpu_encode (d_cpu d)
           ++ opt_node (new_node "headerSystemFilename") (d_header_system_filename d)
           ++ opt_node (new_node "headerDefinitionsPrefix") (d_header_definitions_prefix d)
           ++ [dec_node "addressUnitBits" (d_address_unit_bits d);
               dec_node "width" (d_width d)]
           ++ rp_encode (d_default_properties d)
           ++ [Elem "peripherals" [] pers])).
End Encode.
