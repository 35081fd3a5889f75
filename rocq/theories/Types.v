(** Data types of svd-rs. Field names follow the Rust structs with a prefix per
    type; [Option] is [option], [Vec] is [list], u32/u64 are [N] (bounds are
    stated by the [wt_*] predicates where a property needs them), String is the
    byte string. *)
From Verif Require Import Base.

(** ** Enumerations: [x_parse] is parse_str, [x_str] is as_str. The Rust match on
    string literals is written as a chain of comparisons. *)

(** svd-rs/src/access.rs:5-28, parse_str 50-59, as_str 62-70 *)
Inductive access :=
  | ReadOnly
  | ReadWrite
  | ReadWriteOnce
  | WriteOnly
  | WriteOnce.
Definition access_parse (s : string) : option access :=
  if seqb s "read-only" then Some ReadOnly
  else if seqb s "read-write" then Some ReadWrite
  else if seqb s "read-writeOnce" then Some ReadWriteOnce
  else if seqb s "write-only" then Some WriteOnly
  else if seqb s "writeOnce" then Some WriteOnce
  else None.
Definition access_str (x : access) : string :=
  match x with
  | ReadOnly => "read-only"
  | ReadWrite => "read-write"
  | ReadWriteOnce => "read-writeOnce"
  | WriteOnly => "write-only"
  | WriteOnce => "writeOnce"
  end.

(** svd-rs/src/usage.rs:9-16, parse_str 26-33, as_str 36-42 *)
Inductive usage :=
  | URead
  | UWrite
  | UReadWrite.
Definition usage_parse (s : string) : option usage :=
  if seqb s "read" then Some URead
  else if seqb s "write" then Some UWrite
  else if seqb s "read-write" then Some UReadWrite
  else None.
Definition usage_str (x : usage) : string :=
  match x with
  | URead => "read"
  | UWrite => "write"
  | UReadWrite => "read-write"
  end.

(** svd-rs/src/datatype.rs:8-41, parse_str 45-65, as_str 68-87 *)
Inductive data_type :=
  | U8
  | U16
  | U32
  | U64
  | I8
  | I16
  | I32
  | I64
  | U8Ptr
  | U16Ptr
  | U32Ptr
  | U64Ptr
  | I8Ptr
  | I16Ptr
  | I32Ptr
  | I64Ptr.
Definition data_type_parse (s : string) : option data_type :=
  if seqb s "uint8_t" then Some U8
  else if seqb s "uint16_t" then Some U16
  else if seqb s "uint32_t" then Some U32
  else if seqb s "uint64_t" then Some U64
  else if seqb s "int8_t" then Some I8
  else if seqb s "int16_t" then Some I16
  else if seqb s "int32_t" then Some I32
  else if seqb s "int64_t" then Some I64
  else if seqb s "uint8_t *" then Some U8Ptr
  else if seqb s "uint16_t *" then Some U16Ptr
  else if seqb s "uint32_t *" then Some U32Ptr
  else if seqb s "uint64_t *" then Some U64Ptr
  else if seqb s "int8_t *" then Some I8Ptr
  else if seqb s "int16_t *" then Some I16Ptr
  else if seqb s "int32_t *" then Some I32Ptr
  else if seqb s "int64_t *" then Some I64Ptr
  else None.
Definition data_type_str (x : data_type) : string :=
  match x with
  | U8 => "uint8_t"
  | U16 => "uint16_t"
  | U32 => "uint32_t"
  | U64 => "uint64_t"
  | I8 => "int8_t"
  | I16 => "int16_t"
  | I32 => "int32_t"
  | I64 => "int64_t"
  | U8Ptr => "uint8_t *"
  | U16Ptr => "uint16_t *"
  | U32Ptr => "uint32_t *"
  | U64Ptr => "uint64_t *"
  | I8Ptr => "int8_t *"
  | I16Ptr => "int16_t *"
  | I32Ptr => "int32_t *"
  | I64Ptr => "int64_t *"
  end.

(** svd-rs/src/endian.rs:8-17, parse_str 27-35, as_str 38-45 *)
Inductive endian :=
  | Little
  | Big
  | Selectable
  | OtherEndian.
Definition endian_parse (s : string) : option endian :=
  if seqb s "little" then Some Little
  else if seqb s "big" then Some Big
  else if seqb s "selectable" then Some Selectable
  else if seqb s "other" then Some OtherEndian
  else None.
Definition endian_str (x : endian) : string :=
  match x with
  | Little => "little"
  | Big => "big"
  | Selectable => "selectable"
  | OtherEndian => "other"
  end.

(** svd-rs/src/readaction.rs:8-20, parse_str 30-39, as_str 42-49 *)
Inductive read_action :=
  | RaClear
  | RaSet
  | RaModify
  | RaModifyExternal.
Definition read_action_parse (s : string) : option read_action :=
  if seqb s "clear" then Some RaClear
  else if seqb s "set" then Some RaSet
  else if seqb s "modify" then Some RaModify
  else if seqb s "modifyExternal" then Some RaModifyExternal
  else None.
Definition read_action_str (x : read_action) : string :=
  match x with
  | RaClear => "clear"
  | RaSet => "set"
  | RaModify => "modify"
  | RaModifyExternal => "modifyExternal"
  end.

(** ModifiedWriteValues: svd-rs/src/modifiedwritevalues.rs:9-36, parse_str 46-60, as_str 63-75 *)
Inductive mwv :=
  | OneToClear
  | OneToSet
  | OneToToggle
  | ZeroToClear
  | ZeroToSet
  | ZeroToToggle
  | MClear
  | MSet
  | MModify.
Definition mwv_parse (s : string) : option mwv :=
  if seqb s "oneToClear" then Some OneToClear
  else if seqb s "oneToSet" then Some OneToSet
  else if seqb s "oneToToggle" then Some OneToToggle
  else if seqb s "zeroToClear" then Some ZeroToClear
  else if seqb s "zeroToSet" then Some ZeroToSet
  else if seqb s "zeroToToggle" then Some ZeroToToggle
  else if seqb s "clear" then Some MClear
  else if seqb s "set" then Some MSet
  else if seqb s "modify" then Some MModify
  else None.
Definition mwv_str (x : mwv) : string :=
  match x with
  | OneToClear => "oneToClear"
  | OneToSet => "oneToSet"
  | OneToToggle => "oneToToggle"
  | ZeroToClear => "zeroToClear"
  | ZeroToSet => "zeroToSet"
  | ZeroToToggle => "zeroToToggle"
  | MClear => "clear"
  | MSet => "set"
  | MModify => "modify"
  end.

(** svd-rs/src/protection.rs:8-20, parse_str 30-37, as_str 40-46 *)
Inductive protection :=
  | Secure
  | NonSecure
  | Privileged.
Definition protection_parse (s : string) : option protection :=
  if seqb s "s" then Some Secure
  else if seqb s "n" then Some NonSecure
  else if seqb s "p" then Some Privileged
  else None.
Definition protection_str (x : protection) : string :=
  match x with
  | Secure => "s"
  | NonSecure => "n"
  | Privileged => "p"
  end.

(** AddressBlockUsage: svd-rs/src/addressblock.rs:29-36, parse_str 46-53, as_str 56-62 *)
Inductive ab_usage :=
  | Registers
  | Buffer
  | Reserved.
Definition ab_usage_parse (s : string) : option ab_usage :=
  if seqb s "registers" then Some Registers
  else if seqb s "buffer" then Some Buffer
  else if seqb s "reserved" then Some Reserved
  else None.
Definition ab_usage_str (x : ab_usage) : string :=
  match x with
  | Registers => "registers"
  | Buffer => "buffer"
  | Reserved => "reserved"
  end.

(** ** Validation level: svd-rs/src/lib.rs:97-122 *)
Inductive level := Disabled | Weak | Strict.
Definition is_disabled (l : level) : bool := match l with Disabled => true | _ => false end.
Definition is_strict (l : level) : bool := match l with Strict => true | _ => false end.

(** svd-rs/src/access.rs:32-39 *)
Definition can_read (a : access) : bool :=
  match a with ReadOnly | ReadWrite | ReadWriteOnce => true | _ => false end.
Definition can_write (a : access) : bool := match a with ReadOnly => false | _ => true end.

(** ** Bit ranges: svd-rs/src/bitrange.rs:11-31 *)
Inductive bit_range_type := BRT_BitRange | BRT_OffsetWidth | BRT_MsbLsb.
Record bit_range := BitRange { br_offset : N; br_width : N; br_type : bit_range_type }.

(** ** Write constraints: svd-rs/src/writeconstraint.rs:10-29 *)
Inductive write_constraint :=
  | WriteAsRead (b : bool)
  | UseEnumeratedValues (b : bool)
  | WcRange (min max : N).

(** ** EnumeratedValue: svd-rs/src/enumeratedvalue.rs:7-31 *)
Record enumerated_value := EnumeratedValue {
  ev_name : string;
  ev_description : option string;
  ev_value : option N;
  ev_is_default : option bool }.

(** ** EnumeratedValues: svd-rs/src/enumeratedvalues.rs:7-36 *)
Record enumerated_values := EnumeratedValues {
  evs_name : option string;
  evs_usage : option usage;
  evs_derived_from : option string;
  evs_values : list enumerated_value }.

(** ** DimElement, DimArrayIndex: svd-rs/src/dimelement.rs:13-69 *)
Record dim_array_index := DimArrayIndex {
  dai_header_enum_name : option string;
  dai_values : list enumerated_value }.
Record dim_element := DimElement {
  de_dim : N;
  de_increment : N;
  de_index : option (list string);
  de_name : option string;
  de_array_index : option dim_array_index }.

(** ** MaybeArray: svd-rs/src/array.rs:6-42; [info] is Deref. *)
Inductive maybe_array (A : Type) := Single (a : A) | Array (a : A) (d : dim_element).
Arguments Single {A}. Arguments Array {A}.
Definition info {A} (x : maybe_array A) : A := match x with Single a => a | Array a _ => a end.
Definition is_single {A} (x : maybe_array A) : bool := match x with Single _ => true | _ => false end.
(** DerefMut: replace the info, keep the shape. *)
Definition ma_map {A B} (f : A -> B) (x : maybe_array A) : maybe_array B :=
  match x with Single a => Single (f a) | Array a d => Array (f a) d end.

(** ** RegisterProperties: svd-rs/src/registerproperties.rs:25-60; [Default] *)
Record reg_props := RegProps {
  rp_size : option N;
  rp_access : option access;
  rp_protection : option protection;
  rp_reset_value : option N;
  rp_reset_mask : option N }.
Definition rp_default : reg_props := RegProps None None None None None.

(** ** FieldInfo: svd-rs/src/field.rs:25-85 *)
Record field_info := FieldInfo {
  f_name : string;
  f_description : option string;
  f_bit_range : bit_range;
  f_access : option access;
  f_mwv : option mwv;
  f_write_constraint : option write_constraint;
  f_read_action : option read_action;
  f_enumerated_values : list enumerated_values;
  f_derived_from : option string }.
Definition field := maybe_array field_info.

(** ** RegisterInfo: svd-rs/src/register.rs:28-112 *)
Record register_info := RegisterInfo {
  r_name : string;
  r_display_name : option string;
  r_description : option string;
  r_alternate_group : option string;
  r_alternate_register : option string;
  r_address_offset : N;
  r_properties : reg_props;
  r_datatype : option data_type;
  r_mwv : option mwv;
  r_write_constraint : option write_constraint;
  r_read_action : option read_action;
  r_fields : option (list field);
  r_derived_from : option string }.
Definition register := maybe_array register_info.

(** ** ClusterInfo: svd-rs/src/cluster.rs:31-74, open in the type of children so
    that the recursive type below can be given; RegisterCluster:
    svd-rs/src/registercluster.rs:11-16. *)
Record cluster_info_of (RC : Type) := ClusterInfo {
  c_name : string;
  c_description : option string;
  c_alternate_cluster : option string;
  c_header_struct_name : option string;
  c_address_offset : N;
  c_default_properties : reg_props;
  c_children : list RC;
  c_derived_from : option string }.
Arguments ClusterInfo {RC}. Arguments c_name {RC}. Arguments c_description {RC}.
Arguments c_alternate_cluster {RC}. Arguments c_header_struct_name {RC}.
Arguments c_address_offset {RC}. Arguments c_default_properties {RC}.
Arguments c_children {RC}. Arguments c_derived_from {RC}.

Inductive register_cluster :=
  | RCRegister (r : register)
  | RCCluster (c : maybe_array (cluster_info_of register_cluster)).
Definition cluster_info := cluster_info_of register_cluster.
Definition cluster := maybe_array cluster_info.

(** svd-rs/src/registercluster.rs:30-59 *)
Definition rc_name (rc : register_cluster) : string :=
  match rc with RCRegister r => r_name (info r) | RCCluster c => c_name (info c) end.
Definition rc_derived_from (rc : register_cluster) : option string :=
  match rc with RCRegister r => r_derived_from (info r) | RCCluster c => c_derived_from (info c) end.
Definition rc_address_offset (rc : register_cluster) : N :=
  match rc with RCRegister r => r_address_offset (info r) | RCCluster c => c_address_offset (info c) end.

(** ** AddressBlock: svd-rs/src/addressblock.rs:7-20 *)
Record address_block := AddressBlock {
  ab_offset : N; ab_size : N; ab_use : ab_usage; ab_protection : option protection }.

(** ** Interrupt: svd-rs/src/interrupt.rs:7-20 *)
Record interrupt := Interrupt { it_name : string; it_description : option string; it_value : N }.

(** ** PeripheralInfo: svd-rs/src/peripheral.rs:31-126 *)
Record peripheral_info := PeripheralInfo {
  p_name : string;
  p_display_name : option string;
  p_version : option string;
  p_description : option string;
  p_alternate_peripheral : option string;
  p_group_name : option string;
  p_prepend_to_name : option string;
  p_append_to_name : option string;
  p_header_struct_name : option string;
  p_base_address : N;
  p_default_properties : reg_props;
  p_address_block : option (list address_block);
  p_interrupt : list interrupt;
  p_registers : option (list register_cluster);
  p_derived_from : option string }.
Definition peripheral := maybe_array peripheral_info.

(** ** Cpu: svd-rs/src/cpu.rs:10-99 *)
Record cpu := Cpu {
  cpu_name : string;
  cpu_revision : string;
  cpu_endian : endian;
  cpu_mpu_present : bool;
  cpu_fpu_present : bool;
  cpu_fpu_double_precision : option bool;
  cpu_dsp_present : option bool;
  cpu_icache_present : option bool;
  cpu_dcache_present : option bool;
  cpu_itcm_present : option bool;
  cpu_dtcm_present : option bool;
  cpu_vtor_present : option bool;
  cpu_nvic_priority_bits : N;
  cpu_has_vendor_systick : bool;
  cpu_device_num_interrupts : option N;
  cpu_sau_num_regions : option N }.

(** ** Device: svd-rs/src/device.rs:22-108 *)
Record device := Device {
  d_vendor : option string;
  d_vendor_id : option string;
  d_name : string;
  d_series : option string;
  d_version : string;
  d_description : string;
  d_license_text : option string;
  d_cpu : option cpu;
  d_header_system_filename : option string;
  d_header_definitions_prefix : option string;
  d_address_unit_bits : N;
  d_width : N;
  d_default_properties : reg_props;
  d_peripherals : list peripheral;
  d_xmlns_xs : string;
  d_no_namespace_schema_location : string;
  d_schema_version : string }.

(** ** Child iterators *)

(** RegisterIter: svd-rs/src/registercluster.rs:66-75 *)
Fixpoint rc_registers (l : list register_cluster) : list register :=
  match l with
  | [] => []
  | RCRegister r :: l' => r :: rc_registers l'
  | RCCluster _ :: l' => rc_registers l'
  end.
(** ClusterIter: svd-rs/src/registercluster.rs:98-107 *)
Fixpoint rc_clusters (l : list register_cluster) : list cluster :=
  match l with
  | [] => []
  | RCCluster c :: l' => c :: rc_clusters l'
  | RCRegister _ :: l' => rc_clusters l'
  end.
(** RegisterInfo::fields: svd-rs/src/register.rs:399-404 *)
Definition r_fields_iter (r : register_info) : list field := opt_default [] (r_fields r).
(** PeripheralInfo::registers/clusters source list: svd-rs/src/peripheral.rs:421-458 *)
Definition p_children (p : peripheral_info) : list register_cluster := opt_default [] (p_registers p).
