(** Encoder configuration: svd-encoder/src/config.rs. *)
From Verif Require Import Base Num Types.

(** IdentifierFormat and its FromStr: config.rs:7-39 *)
Inductive id_format := Camel | Pascal | Snake | Constant.
Definition id_format_parse (s : string) : option id_format :=
  if seqb s "Camel" then Some Camel
  else if seqb s "Pascal" then Some Pascal
  else if seqb s "Snake" then Some Snake
  else if seqb s "Constant" then Some Constant
  else None.

(** change_case: config.rs:41-64. The case conversion proper is the external crate
    convert_case; it is the parameter [conv]. *)
Definition change_case (conv : id_format -> string -> string) (s : string) (case : option id_format)
  : string :=
  match case with
  | None => s
  | Some f => replace "%S" "%s" (conv f s)
  end.

(** FromStr of NumberFormat: config.rs:102-118 *)
Definition number_format_parse (s : string) : option number_format :=
  if seqb s "UpperHex" then Some UpperHex
  else if seqb s "UpperHex8" then Some UpperHex8
  else if seqb s "UpperHex16" then Some UpperHex16
  else if seqb s "LowerHex" then Some LowerHex
  else if seqb s "LowerHex8" then Some LowerHex8
  else if seqb s "LowerHex16" then Some LowerHex16
  else if seqb s "Dec" then Some Dec
  else if seqb s "Bin" then Some Bin
  else None.

(** FieldBitRangeFormat (a wrapped BitRangeType) and its FromStr: config.rs:153-167 *)
Definition bit_range_format_parse (s : string) : option bit_range_type :=
  if seqb s "BitRange" then Some BRT_BitRange
  else if seqb s "OffsetWidth" then Some BRT_OffsetWidth
  else if seqb s "MsbLsb" then Some BRT_MsbLsb
  else None.

(** Sorting and from_parts: config.rs:172-193; [parts.contains(&s)] is [has_part]. *)
Inductive sorting := ByOffset | ByOffsetReversed | ByName.
Definition has_part (s : string) (parts : list string) : bool := existsb (seqb s) parts.
Definition sorting_from_parts (parts : list string) : option sorting :=
  if has_part "Offset" parts then Some ByOffset
  else if has_part "OffsetReversed" parts then Some ByOffsetReversed
  else if has_part "Name" parts then Some ByName
  else None.

(** DerivableSorting: config.rs:195-225; its FromStr never fails. *)
Inductive derivable_sorting := Unchanged (s : option sorting) | DeriveLast (s : option sorting).
Definition derivable_from_parts (parts : list string) : derivable_sorting :=
  let s := sorting_from_parts parts in
  if has_part "DerivedLast" parts then DeriveLast s else Unchanged s.
Definition derivable_sorting_parse (s : string) : option derivable_sorting :=
  Some (derivable_from_parts (split "," s)).

(** RcSorting: config.rs:227-254; its FromStr never fails. *)
Inductive rc_sorting :=
  | RcUnchanged (s : derivable_sorting)
  | RegistersFirst (s : derivable_sorting)
  | ClustersFirst (s : derivable_sorting).
Definition rc_sorting_parse (s : string) : option rc_sorting :=
  let parts := split "," s in
  let d := derivable_from_parts parts in
  Some (if has_part "RegistersFirst" parts then RegistersFirst d
        else if has_part "ClustersFirst" parts then ClustersFirst d
        else RcUnchanged d).

(** Config: config.rs:256-370 *)
Record config := Config {
  cfg_peripheral_name : option id_format;
  cfg_peripheral_base_address : number_format;
  cfg_peripheral_sorting : derivable_sorting;
  cfg_address_block_offset : number_format;
  cfg_address_block_size : number_format;
  cfg_interrupt_name : option id_format;
  cfg_cluster_name : option id_format;
  cfg_cluster_address_offset : number_format;
  cfg_register_cluster_sorting : rc_sorting;
  cfg_register_name : option id_format;
  cfg_register_address_offset : number_format;
  cfg_register_size : number_format;
  cfg_register_reset_value : number_format;
  cfg_register_reset_mask : number_format;
  cfg_field_name : option id_format;
  cfg_field_bit_range : option bit_range_type;
  cfg_field_sorting : derivable_sorting;
  cfg_enumerated_values_name : option id_format;
  cfg_enumerated_value_name : option id_format;
  cfg_enumerated_value_value : number_format;
  cfg_dim_dim : number_format;
  cfg_dim_increment : number_format;
  cfg_dim_array_index_header_enum_name : option id_format }.

(** Default: config.rs:372-400 *)
Definition config_default : config :=
  {| cfg_peripheral_name := None;
     cfg_peripheral_base_address := UpperHex8;
     cfg_peripheral_sorting := Unchanged None;
     cfg_address_block_offset := UpperHex;
     cfg_address_block_size := UpperHex;
     cfg_interrupt_name := None;
     cfg_cluster_name := None;
     cfg_cluster_address_offset := UpperHex;
     cfg_register_cluster_sorting := RcUnchanged (Unchanged None);
     cfg_register_name := None;
     cfg_register_address_offset := UpperHex;
     cfg_register_size := LowerHex;
     cfg_register_reset_value := UpperHex16;
     cfg_register_reset_mask := UpperHex16;
     cfg_field_name := None;
     cfg_field_bit_range := None;
     cfg_field_sorting := Unchanged None;
     cfg_enumerated_values_name := None;
     cfg_enumerated_value_name := None;
     cfg_enumerated_value_value := Dec;
     cfg_dim_dim := Dec;
     cfg_dim_increment := UpperHex;
     cfg_dim_array_index_header_enum_name := None |}.

(** Assignments to one field, [self.x = v]; also the setter methods config.rs:439-599
    (there is none for dim_array_index_header_enum_name). *)
Definition set_peripheral_name (v : option id_format) (c : config) : config :=
  {| cfg_peripheral_name := v;
     cfg_peripheral_base_address := cfg_peripheral_base_address c;
     cfg_peripheral_sorting := cfg_peripheral_sorting c;
     cfg_address_block_offset := cfg_address_block_offset c;
     cfg_address_block_size := cfg_address_block_size c;
     cfg_interrupt_name := cfg_interrupt_name c;
     cfg_cluster_name := cfg_cluster_name c;
     cfg_cluster_address_offset := cfg_cluster_address_offset c;
     cfg_register_cluster_sorting := cfg_register_cluster_sorting c;
     cfg_register_name := cfg_register_name c;
     cfg_register_address_offset := cfg_register_address_offset c;
     cfg_register_size := cfg_register_size c;
     cfg_register_reset_value := cfg_register_reset_value c;
     cfg_register_reset_mask := cfg_register_reset_mask c;
     cfg_field_name := cfg_field_name c;
     cfg_field_bit_range := cfg_field_bit_range c;
     cfg_field_sorting := cfg_field_sorting c;
     cfg_enumerated_values_name := cfg_enumerated_values_name c;
     cfg_enumerated_value_name := cfg_enumerated_value_name c;
     cfg_enumerated_value_value := cfg_enumerated_value_value c;
     cfg_dim_dim := cfg_dim_dim c;
     cfg_dim_increment := cfg_dim_increment c;
     cfg_dim_array_index_header_enum_name := cfg_dim_array_index_header_enum_name c |}.
Definition set_peripheral_base_address (v : number_format) (c : config) : config :=
  {| cfg_peripheral_name := cfg_peripheral_name c;
     cfg_peripheral_base_address := v;
     cfg_peripheral_sorting := cfg_peripheral_sorting c;
     cfg_address_block_offset := cfg_address_block_offset c;
     cfg_address_block_size := cfg_address_block_size c;
     cfg_interrupt_name := cfg_interrupt_name c;
     cfg_cluster_name := cfg_cluster_name c;
     cfg_cluster_address_offset := cfg_cluster_address_offset c;
     cfg_register_cluster_sorting := cfg_register_cluster_sorting c;
     cfg_register_name := cfg_register_name c;
     cfg_register_address_offset := cfg_register_address_offset c;
     cfg_register_size := cfg_register_size c;
     cfg_register_reset_value := cfg_register_reset_value c;
     cfg_register_reset_mask := cfg_register_reset_mask c;
     cfg_field_name := cfg_field_name c;
     cfg_field_bit_range := cfg_field_bit_range c;
     cfg_field_sorting := cfg_field_sorting c;
     cfg_enumerated_values_name := cfg_enumerated_values_name c;
     cfg_enumerated_value_name := cfg_enumerated_value_name c;
     cfg_enumerated_value_value := cfg_enumerated_value_value c;
     cfg_dim_dim := cfg_dim_dim c;
     cfg_dim_increment := cfg_dim_increment c;
     cfg_dim_array_index_header_enum_name := cfg_dim_array_index_header_enum_name c |}.
Definition set_peripheral_sorting (v : derivable_sorting) (c : config) : config :=
  {| cfg_peripheral_name := cfg_peripheral_name c;
     cfg_peripheral_base_address := cfg_peripheral_base_address c;
     cfg_peripheral_sorting := v;
     cfg_address_block_offset := cfg_address_block_offset c;
     cfg_address_block_size := cfg_address_block_size c;
     cfg_interrupt_name := cfg_interrupt_name c;
     cfg_cluster_name := cfg_cluster_name c;
     cfg_cluster_address_offset := cfg_cluster_address_offset c;
     cfg_register_cluster_sorting := cfg_register_cluster_sorting c;
     cfg_register_name := cfg_register_name c;
     cfg_register_address_offset := cfg_register_address_offset c;
     cfg_register_size := cfg_register_size c;
     cfg_register_reset_value := cfg_register_reset_value c;
     cfg_register_reset_mask := cfg_register_reset_mask c;
     cfg_field_name := cfg_field_name c;
     cfg_field_bit_range := cfg_field_bit_range c;
     cfg_field_sorting := cfg_field_sorting c;
     cfg_enumerated_values_name := cfg_enumerated_values_name c;
     cfg_enumerated_value_name := cfg_enumerated_value_name c;
     cfg_enumerated_value_value := cfg_enumerated_value_value c;
     cfg_dim_dim := cfg_dim_dim c;
     cfg_dim_increment := cfg_dim_increment c;
     cfg_dim_array_index_header_enum_name := cfg_dim_array_index_header_enum_name c |}.
Definition set_address_block_offset (v : number_format) (c : config) : config :=
  {| cfg_peripheral_name := cfg_peripheral_name c;
     cfg_peripheral_base_address := cfg_peripheral_base_address c;
     cfg_peripheral_sorting := cfg_peripheral_sorting c;
     cfg_address_block_offset := v;
     cfg_address_block_size := cfg_address_block_size c;
     cfg_interrupt_name := cfg_interrupt_name c;
     cfg_cluster_name := cfg_cluster_name c;
     cfg_cluster_address_offset := cfg_cluster_address_offset c;
     cfg_register_cluster_sorting := cfg_register_cluster_sorting c;
     cfg_register_name := cfg_register_name c;
     cfg_register_address_offset := cfg_register_address_offset c;
     cfg_register_size := cfg_register_size c;
     cfg_register_reset_value := cfg_register_reset_value c;
     cfg_register_reset_mask := cfg_register_reset_mask c;
     cfg_field_name := cfg_field_name c;
     cfg_field_bit_range := cfg_field_bit_range c;
     cfg_field_sorting := cfg_field_sorting c;
     cfg_enumerated_values_name := cfg_enumerated_values_name c;
     cfg_enumerated_value_name := cfg_enumerated_value_name c;
     cfg_enumerated_value_value := cfg_enumerated_value_value c;
     cfg_dim_dim := cfg_dim_dim c;
     cfg_dim_increment := cfg_dim_increment c;
     cfg_dim_array_index_header_enum_name := cfg_dim_array_index_header_enum_name c |}.
Definition set_address_block_size (v : number_format) (c : config) : config :=
  {| cfg_peripheral_name := cfg_peripheral_name c;
     cfg_peripheral_base_address := cfg_peripheral_base_address c;
     cfg_peripheral_sorting := cfg_peripheral_sorting c;
     cfg_address_block_offset := cfg_address_block_offset c;
     cfg_address_block_size := v;
     cfg_interrupt_name := cfg_interrupt_name c;
     cfg_cluster_name := cfg_cluster_name c;
     cfg_cluster_address_offset := cfg_cluster_address_offset c;
     cfg_register_cluster_sorting := cfg_register_cluster_sorting c;
     cfg_register_name := cfg_register_name c;
     cfg_register_address_offset := cfg_register_address_offset c;
     cfg_register_size := cfg_register_size c;
     cfg_register_reset_value := cfg_register_reset_value c;
     cfg_register_reset_mask := cfg_register_reset_mask c;
     cfg_field_name := cfg_field_name c;
     cfg_field_bit_range := cfg_field_bit_range c;
     cfg_field_sorting := cfg_field_sorting c;
     cfg_enumerated_values_name := cfg_enumerated_values_name c;
     cfg_enumerated_value_name := cfg_enumerated_value_name c;
     cfg_enumerated_value_value := cfg_enumerated_value_value c;
     cfg_dim_dim := cfg_dim_dim c;
     cfg_dim_increment := cfg_dim_increment c;
     cfg_dim_array_index_header_enum_name := cfg_dim_array_index_header_enum_name c |}.
Definition set_interrupt_name (v : option id_format) (c : config) : config :=
  {| cfg_peripheral_name := cfg_peripheral_name c;
     cfg_peripheral_base_address := cfg_peripheral_base_address c;
     cfg_peripheral_sorting := cfg_peripheral_sorting c;
     cfg_address_block_offset := cfg_address_block_offset c;
     cfg_address_block_size := cfg_address_block_size c;
     cfg_interrupt_name := v;
     cfg_cluster_name := cfg_cluster_name c;
     cfg_cluster_address_offset := cfg_cluster_address_offset c;
     cfg_register_cluster_sorting := cfg_register_cluster_sorting c;
     cfg_register_name := cfg_register_name c;
     cfg_register_address_offset := cfg_register_address_offset c;
     cfg_register_size := cfg_register_size c;
     cfg_register_reset_value := cfg_register_reset_value c;
     cfg_register_reset_mask := cfg_register_reset_mask c;
     cfg_field_name := cfg_field_name c;
     cfg_field_bit_range := cfg_field_bit_range c;
     cfg_field_sorting := cfg_field_sorting c;
     cfg_enumerated_values_name := cfg_enumerated_values_name c;
     cfg_enumerated_value_name := cfg_enumerated_value_name c;
     cfg_enumerated_value_value := cfg_enumerated_value_value c;
     cfg_dim_dim := cfg_dim_dim c;
     cfg_dim_increment := cfg_dim_increment c;
     cfg_dim_array_index_header_enum_name := cfg_dim_array_index_header_enum_name c |}.
Definition set_cluster_name (v : option id_format) (c : config) : config :=
  {| cfg_peripheral_name := cfg_peripheral_name c;
     cfg_peripheral_base_address := cfg_peripheral_base_address c;
     cfg_peripheral_sorting := cfg_peripheral_sorting c;
     cfg_address_block_offset := cfg_address_block_offset c;
     cfg_address_block_size := cfg_address_block_size c;
     cfg_interrupt_name := cfg_interrupt_name c;
     cfg_cluster_name := v;
     cfg_cluster_address_offset := cfg_cluster_address_offset c;
     cfg_register_cluster_sorting := cfg_register_cluster_sorting c;
     cfg_register_name := cfg_register_name c;
     cfg_register_address_offset := cfg_register_address_offset c;
     cfg_register_size := cfg_register_size c;
     cfg_register_reset_value := cfg_register_reset_value c;
     cfg_register_reset_mask := cfg_register_reset_mask c;
     cfg_field_name := cfg_field_name c;
     cfg_field_bit_range := cfg_field_bit_range c;
     cfg_field_sorting := cfg_field_sorting c;
     cfg_enumerated_values_name := cfg_enumerated_values_name c;
     cfg_enumerated_value_name := cfg_enumerated_value_name c;
     cfg_enumerated_value_value := cfg_enumerated_value_value c;
     cfg_dim_dim := cfg_dim_dim c;
     cfg_dim_increment := cfg_dim_increment c;
     cfg_dim_array_index_header_enum_name := cfg_dim_array_index_header_enum_name c |}.
Definition set_cluster_address_offset (v : number_format) (c : config) : config :=
  {| cfg_peripheral_name := cfg_peripheral_name c;
     cfg_peripheral_base_address := cfg_peripheral_base_address c;
     cfg_peripheral_sorting := cfg_peripheral_sorting c;
     cfg_address_block_offset := cfg_address_block_offset c;
     cfg_address_block_size := cfg_address_block_size c;
     cfg_interrupt_name := cfg_interrupt_name c;
     cfg_cluster_name := cfg_cluster_name c;
     cfg_cluster_address_offset := v;
     cfg_register_cluster_sorting := cfg_register_cluster_sorting c;
     cfg_register_name := cfg_register_name c;
     cfg_register_address_offset := cfg_register_address_offset c;
     cfg_register_size := cfg_register_size c;
     cfg_register_reset_value := cfg_register_reset_value c;
     cfg_register_reset_mask := cfg_register_reset_mask c;
     cfg_field_name := cfg_field_name c;
     cfg_field_bit_range := cfg_field_bit_range c;
     cfg_field_sorting := cfg_field_sorting c;
     cfg_enumerated_values_name := cfg_enumerated_values_name c;
     cfg_enumerated_value_name := cfg_enumerated_value_name c;
     cfg_enumerated_value_value := cfg_enumerated_value_value c;
     cfg_dim_dim := cfg_dim_dim c;
     cfg_dim_increment := cfg_dim_increment c;
     cfg_dim_array_index_header_enum_name := cfg_dim_array_index_header_enum_name c |}.
Definition set_register_cluster_sorting (v : rc_sorting) (c : config) : config :=
  {| cfg_peripheral_name := cfg_peripheral_name c;
     cfg_peripheral_base_address := cfg_peripheral_base_address c;
     cfg_peripheral_sorting := cfg_peripheral_sorting c;
     cfg_address_block_offset := cfg_address_block_offset c;
     cfg_address_block_size := cfg_address_block_size c;
     cfg_interrupt_name := cfg_interrupt_name c;
     cfg_cluster_name := cfg_cluster_name c;
     cfg_cluster_address_offset := cfg_cluster_address_offset c;
     cfg_register_cluster_sorting := v;
     cfg_register_name := cfg_register_name c;
     cfg_register_address_offset := cfg_register_address_offset c;
     cfg_register_size := cfg_register_size c;
     cfg_register_reset_value := cfg_register_reset_value c;
     cfg_register_reset_mask := cfg_register_reset_mask c;
     cfg_field_name := cfg_field_name c;
     cfg_field_bit_range := cfg_field_bit_range c;
     cfg_field_sorting := cfg_field_sorting c;
     cfg_enumerated_values_name := cfg_enumerated_values_name c;
     cfg_enumerated_value_name := cfg_enumerated_value_name c;
     cfg_enumerated_value_value := cfg_enumerated_value_value c;
     cfg_dim_dim := cfg_dim_dim c;
     cfg_dim_increment := cfg_dim_increment c;
     cfg_dim_array_index_header_enum_name := cfg_dim_array_index_header_enum_name c |}.
Definition set_register_name (v : option id_format) (c : config) : config :=
  {| cfg_peripheral_name := cfg_peripheral_name c;
     cfg_peripheral_base_address := cfg_peripheral_base_address c;
     cfg_peripheral_sorting := cfg_peripheral_sorting c;
     cfg_address_block_offset := cfg_address_block_offset c;
     cfg_address_block_size := cfg_address_block_size c;
     cfg_interrupt_name := cfg_interrupt_name c;
     cfg_cluster_name := cfg_cluster_name c;
     cfg_cluster_address_offset := cfg_cluster_address_offset c;
     cfg_register_cluster_sorting := cfg_register_cluster_sorting c;
     cfg_register_name := v;
     cfg_register_address_offset := cfg_register_address_offset c;
     cfg_register_size := cfg_register_size c;
     cfg_register_reset_value := cfg_register_reset_value c;
     cfg_register_reset_mask := cfg_register_reset_mask c;
     cfg_field_name := cfg_field_name c;
     cfg_field_bit_range := cfg_field_bit_range c;
     cfg_field_sorting := cfg_field_sorting c;
     cfg_enumerated_values_name := cfg_enumerated_values_name c;
     cfg_enumerated_value_name := cfg_enumerated_value_name c;
     cfg_enumerated_value_value := cfg_enumerated_value_value c;
     cfg_dim_dim := cfg_dim_dim c;
     cfg_dim_increment := cfg_dim_increment c;
     cfg_dim_array_index_header_enum_name := cfg_dim_array_index_header_enum_name c |}.
Definition set_register_address_offset (v : number_format) (c : config) : config :=
  {| cfg_peripheral_name := cfg_peripheral_name c;
     cfg_peripheral_base_address := cfg_peripheral_base_address c;
     cfg_peripheral_sorting := cfg_peripheral_sorting c;
     cfg_address_block_offset := cfg_address_block_offset c;
     cfg_address_block_size := cfg_address_block_size c;
     cfg_interrupt_name := cfg_interrupt_name c;
     cfg_cluster_name := cfg_cluster_name c;
     cfg_cluster_address_offset := cfg_cluster_address_offset c;
     cfg_register_cluster_sorting := cfg_register_cluster_sorting c;
     cfg_register_name := cfg_register_name c;
     cfg_register_address_offset := v;
     cfg_register_size := cfg_register_size c;
     cfg_register_reset_value := cfg_register_reset_value c;
     cfg_register_reset_mask := cfg_register_reset_mask c;
     cfg_field_name := cfg_field_name c;
     cfg_field_bit_range := cfg_field_bit_range c;
     cfg_field_sorting := cfg_field_sorting c;
     cfg_enumerated_values_name := cfg_enumerated_values_name c;
     cfg_enumerated_value_name := cfg_enumerated_value_name c;
     cfg_enumerated_value_value := cfg_enumerated_value_value c;
     cfg_dim_dim := cfg_dim_dim c;
     cfg_dim_increment := cfg_dim_increment c;
     cfg_dim_array_index_header_enum_name := cfg_dim_array_index_header_enum_name c |}.
Definition set_register_size (v : number_format) (c : config) : config :=
  {| cfg_peripheral_name := cfg_peripheral_name c;
     cfg_peripheral_base_address := cfg_peripheral_base_address c;
     cfg_peripheral_sorting := cfg_peripheral_sorting c;
     cfg_address_block_offset := cfg_address_block_offset c;
     cfg_address_block_size := cfg_address_block_size c;
     cfg_interrupt_name := cfg_interrupt_name c;
     cfg_cluster_name := cfg_cluster_name c;
     cfg_cluster_address_offset := cfg_cluster_address_offset c;
     cfg_register_cluster_sorting := cfg_register_cluster_sorting c;
     cfg_register_name := cfg_register_name c;
     cfg_register_address_offset := cfg_register_address_offset c;
     cfg_register_size := v;
     cfg_register_reset_value := cfg_register_reset_value c;
     cfg_register_reset_mask := cfg_register_reset_mask c;
     cfg_field_name := cfg_field_name c;
     cfg_field_bit_range := cfg_field_bit_range c;
     cfg_field_sorting := cfg_field_sorting c;
     cfg_enumerated_values_name := cfg_enumerated_values_name c;
     cfg_enumerated_value_name := cfg_enumerated_value_name c;
     cfg_enumerated_value_value := cfg_enumerated_value_value c;
     cfg_dim_dim := cfg_dim_dim c;
     cfg_dim_increment := cfg_dim_increment c;
     cfg_dim_array_index_header_enum_name := cfg_dim_array_index_header_enum_name c |}.
Definition set_register_reset_value (v : number_format) (c : config) : config :=
  {| cfg_peripheral_name := cfg_peripheral_name c;
     cfg_peripheral_base_address := cfg_peripheral_base_address c;
     cfg_peripheral_sorting := cfg_peripheral_sorting c;
     cfg_address_block_offset := cfg_address_block_offset c;
     cfg_address_block_size := cfg_address_block_size c;
     cfg_interrupt_name := cfg_interrupt_name c;
     cfg_cluster_name := cfg_cluster_name c;
     cfg_cluster_address_offset := cfg_cluster_address_offset c;
     cfg_register_cluster_sorting := cfg_register_cluster_sorting c;
     cfg_register_name := cfg_register_name c;
     cfg_register_address_offset := cfg_register_address_offset c;
     cfg_register_size := cfg_register_size c;
     cfg_register_reset_value := v;
     cfg_register_reset_mask := cfg_register_reset_mask c;
     cfg_field_name := cfg_field_name c;
     cfg_field_bit_range := cfg_field_bit_range c;
     cfg_field_sorting := cfg_field_sorting c;
     cfg_enumerated_values_name := cfg_enumerated_values_name c;
     cfg_enumerated_value_name := cfg_enumerated_value_name c;
     cfg_enumerated_value_value := cfg_enumerated_value_value c;
     cfg_dim_dim := cfg_dim_dim c;
     cfg_dim_increment := cfg_dim_increment c;
     cfg_dim_array_index_header_enum_name := cfg_dim_array_index_header_enum_name c |}.
Definition set_register_reset_mask (v : number_format) (c : config) : config :=
  {| cfg_peripheral_name := cfg_peripheral_name c;
     cfg_peripheral_base_address := cfg_peripheral_base_address c;
     cfg_peripheral_sorting := cfg_peripheral_sorting c;
     cfg_address_block_offset := cfg_address_block_offset c;
     cfg_address_block_size := cfg_address_block_size c;
     cfg_interrupt_name := cfg_interrupt_name c;
     cfg_cluster_name := cfg_cluster_name c;
     cfg_cluster_address_offset := cfg_cluster_address_offset c;
     cfg_register_cluster_sorting := cfg_register_cluster_sorting c;
     cfg_register_name := cfg_register_name c;
     cfg_register_address_offset := cfg_register_address_offset c;
     cfg_register_size := cfg_register_size c;
     cfg_register_reset_value := cfg_register_reset_value c;
     cfg_register_reset_mask := v;
     cfg_field_name := cfg_field_name c;
     cfg_field_bit_range := cfg_field_bit_range c;
     cfg_field_sorting := cfg_field_sorting c;
     cfg_enumerated_values_name := cfg_enumerated_values_name c;
     cfg_enumerated_value_name := cfg_enumerated_value_name c;
     cfg_enumerated_value_value := cfg_enumerated_value_value c;
     cfg_dim_dim := cfg_dim_dim c;
     cfg_dim_increment := cfg_dim_increment c;
     cfg_dim_array_index_header_enum_name := cfg_dim_array_index_header_enum_name c |}.
Definition set_field_name (v : option id_format) (c : config) : config :=
  {| cfg_peripheral_name := cfg_peripheral_name c;
     cfg_peripheral_base_address := cfg_peripheral_base_address c;
     cfg_peripheral_sorting := cfg_peripheral_sorting c;
     cfg_address_block_offset := cfg_address_block_offset c;
     cfg_address_block_size := cfg_address_block_size c;
     cfg_interrupt_name := cfg_interrupt_name c;
     cfg_cluster_name := cfg_cluster_name c;
     cfg_cluster_address_offset := cfg_cluster_address_offset c;
     cfg_register_cluster_sorting := cfg_register_cluster_sorting c;
     cfg_register_name := cfg_register_name c;
     cfg_register_address_offset := cfg_register_address_offset c;
     cfg_register_size := cfg_register_size c;
     cfg_register_reset_value := cfg_register_reset_value c;
     cfg_register_reset_mask := cfg_register_reset_mask c;
     cfg_field_name := v;
     cfg_field_bit_range := cfg_field_bit_range c;
     cfg_field_sorting := cfg_field_sorting c;
     cfg_enumerated_values_name := cfg_enumerated_values_name c;
     cfg_enumerated_value_name := cfg_enumerated_value_name c;
     cfg_enumerated_value_value := cfg_enumerated_value_value c;
     cfg_dim_dim := cfg_dim_dim c;
     cfg_dim_increment := cfg_dim_increment c;
     cfg_dim_array_index_header_enum_name := cfg_dim_array_index_header_enum_name c |}.
Definition set_field_bit_range (v : option bit_range_type) (c : config) : config :=
  {| cfg_peripheral_name := cfg_peripheral_name c;
     cfg_peripheral_base_address := cfg_peripheral_base_address c;
     cfg_peripheral_sorting := cfg_peripheral_sorting c;
     cfg_address_block_offset := cfg_address_block_offset c;
     cfg_address_block_size := cfg_address_block_size c;
     cfg_interrupt_name := cfg_interrupt_name c;
     cfg_cluster_name := cfg_cluster_name c;
     cfg_cluster_address_offset := cfg_cluster_address_offset c;
     cfg_register_cluster_sorting := cfg_register_cluster_sorting c;
     cfg_register_name := cfg_register_name c;
     cfg_register_address_offset := cfg_register_address_offset c;
     cfg_register_size := cfg_register_size c;
     cfg_register_reset_value := cfg_register_reset_value c;
     cfg_register_reset_mask := cfg_register_reset_mask c;
     cfg_field_name := cfg_field_name c;
     cfg_field_bit_range := v;
     cfg_field_sorting := cfg_field_sorting c;
     cfg_enumerated_values_name := cfg_enumerated_values_name c;
     cfg_enumerated_value_name := cfg_enumerated_value_name c;
     cfg_enumerated_value_value := cfg_enumerated_value_value c;
     cfg_dim_dim := cfg_dim_dim c;
     cfg_dim_increment := cfg_dim_increment c;
     cfg_dim_array_index_header_enum_name := cfg_dim_array_index_header_enum_name c |}.
Definition set_field_sorting (v : derivable_sorting) (c : config) : config :=
  {| cfg_peripheral_name := cfg_peripheral_name c;
     cfg_peripheral_base_address := cfg_peripheral_base_address c;
     cfg_peripheral_sorting := cfg_peripheral_sorting c;
     cfg_address_block_offset := cfg_address_block_offset c;
     cfg_address_block_size := cfg_address_block_size c;
     cfg_interrupt_name := cfg_interrupt_name c;
     cfg_cluster_name := cfg_cluster_name c;
     cfg_cluster_address_offset := cfg_cluster_address_offset c;
     cfg_register_cluster_sorting := cfg_register_cluster_sorting c;
     cfg_register_name := cfg_register_name c;
     cfg_register_address_offset := cfg_register_address_offset c;
     cfg_register_size := cfg_register_size c;
     cfg_register_reset_value := cfg_register_reset_value c;
     cfg_register_reset_mask := cfg_register_reset_mask c;
     cfg_field_name := cfg_field_name c;
     cfg_field_bit_range := cfg_field_bit_range c;
     cfg_field_sorting := v;
     cfg_enumerated_values_name := cfg_enumerated_values_name c;
     cfg_enumerated_value_name := cfg_enumerated_value_name c;
     cfg_enumerated_value_value := cfg_enumerated_value_value c;
     cfg_dim_dim := cfg_dim_dim c;
     cfg_dim_increment := cfg_dim_increment c;
     cfg_dim_array_index_header_enum_name := cfg_dim_array_index_header_enum_name c |}.
Definition set_enumerated_values_name (v : option id_format) (c : config) : config :=
  {| cfg_peripheral_name := cfg_peripheral_name c;
     cfg_peripheral_base_address := cfg_peripheral_base_address c;
     cfg_peripheral_sorting := cfg_peripheral_sorting c;
     cfg_address_block_offset := cfg_address_block_offset c;
     cfg_address_block_size := cfg_address_block_size c;
     cfg_interrupt_name := cfg_interrupt_name c;
     cfg_cluster_name := cfg_cluster_name c;
     cfg_cluster_address_offset := cfg_cluster_address_offset c;
     cfg_register_cluster_sorting := cfg_register_cluster_sorting c;
     cfg_register_name := cfg_register_name c;
     cfg_register_address_offset := cfg_register_address_offset c;
     cfg_register_size := cfg_register_size c;
     cfg_register_reset_value := cfg_register_reset_value c;
     cfg_register_reset_mask := cfg_register_reset_mask c;
     cfg_field_name := cfg_field_name c;
     cfg_field_bit_range := cfg_field_bit_range c;
     cfg_field_sorting := cfg_field_sorting c;
     cfg_enumerated_values_name := v;
     cfg_enumerated_value_name := cfg_enumerated_value_name c;
     cfg_enumerated_value_value := cfg_enumerated_value_value c;
     cfg_dim_dim := cfg_dim_dim c;
     cfg_dim_increment := cfg_dim_increment c;
     cfg_dim_array_index_header_enum_name := cfg_dim_array_index_header_enum_name c |}.
Definition set_enumerated_value_name (v : option id_format) (c : config) : config :=
  {| cfg_peripheral_name := cfg_peripheral_name c;
     cfg_peripheral_base_address := cfg_peripheral_base_address c;
     cfg_peripheral_sorting := cfg_peripheral_sorting c;
     cfg_address_block_offset := cfg_address_block_offset c;
     cfg_address_block_size := cfg_address_block_size c;
     cfg_interrupt_name := cfg_interrupt_name c;
     cfg_cluster_name := cfg_cluster_name c;
     cfg_cluster_address_offset := cfg_cluster_address_offset c;
     cfg_register_cluster_sorting := cfg_register_cluster_sorting c;
     cfg_register_name := cfg_register_name c;
     cfg_register_address_offset := cfg_register_address_offset c;
     cfg_register_size := cfg_register_size c;
     cfg_register_reset_value := cfg_register_reset_value c;
     cfg_register_reset_mask := cfg_register_reset_mask c;
     cfg_field_name := cfg_field_name c;
     cfg_field_bit_range := cfg_field_bit_range c;
     cfg_field_sorting := cfg_field_sorting c;
     cfg_enumerated_values_name := cfg_enumerated_values_name c;
     cfg_enumerated_value_name := v;
     cfg_enumerated_value_value := cfg_enumerated_value_value c;
     cfg_dim_dim := cfg_dim_dim c;
     cfg_dim_increment := cfg_dim_increment c;
     cfg_dim_array_index_header_enum_name := cfg_dim_array_index_header_enum_name c |}.
Definition set_enumerated_value_value (v : number_format) (c : config) : config :=
  {| cfg_peripheral_name := cfg_peripheral_name c;
     cfg_peripheral_base_address := cfg_peripheral_base_address c;
     cfg_peripheral_sorting := cfg_peripheral_sorting c;
     cfg_address_block_offset := cfg_address_block_offset c;
     cfg_address_block_size := cfg_address_block_size c;
     cfg_interrupt_name := cfg_interrupt_name c;
     cfg_cluster_name := cfg_cluster_name c;
     cfg_cluster_address_offset := cfg_cluster_address_offset c;
     cfg_register_cluster_sorting := cfg_register_cluster_sorting c;
     cfg_register_name := cfg_register_name c;
     cfg_register_address_offset := cfg_register_address_offset c;
     cfg_register_size := cfg_register_size c;
     cfg_register_reset_value := cfg_register_reset_value c;
     cfg_register_reset_mask := cfg_register_reset_mask c;
     cfg_field_name := cfg_field_name c;
     cfg_field_bit_range := cfg_field_bit_range c;
     cfg_field_sorting := cfg_field_sorting c;
     cfg_enumerated_values_name := cfg_enumerated_values_name c;
     cfg_enumerated_value_name := cfg_enumerated_value_name c;
     cfg_enumerated_value_value := v;
     cfg_dim_dim := cfg_dim_dim c;
     cfg_dim_increment := cfg_dim_increment c;
     cfg_dim_array_index_header_enum_name := cfg_dim_array_index_header_enum_name c |}.
Definition set_dim_dim (v : number_format) (c : config) : config :=
  {| cfg_peripheral_name := cfg_peripheral_name c;
     cfg_peripheral_base_address := cfg_peripheral_base_address c;
     cfg_peripheral_sorting := cfg_peripheral_sorting c;
     cfg_address_block_offset := cfg_address_block_offset c;
     cfg_address_block_size := cfg_address_block_size c;
     cfg_interrupt_name := cfg_interrupt_name c;
     cfg_cluster_name := cfg_cluster_name c;
     cfg_cluster_address_offset := cfg_cluster_address_offset c;
     cfg_register_cluster_sorting := cfg_register_cluster_sorting c;
     cfg_register_name := cfg_register_name c;
     cfg_register_address_offset := cfg_register_address_offset c;
     cfg_register_size := cfg_register_size c;
     cfg_register_reset_value := cfg_register_reset_value c;
     cfg_register_reset_mask := cfg_register_reset_mask c;
     cfg_field_name := cfg_field_name c;
     cfg_field_bit_range := cfg_field_bit_range c;
     cfg_field_sorting := cfg_field_sorting c;
     cfg_enumerated_values_name := cfg_enumerated_values_name c;
     cfg_enumerated_value_name := cfg_enumerated_value_name c;
     cfg_enumerated_value_value := cfg_enumerated_value_value c;
     cfg_dim_dim := v;
     cfg_dim_increment := cfg_dim_increment c;
     cfg_dim_array_index_header_enum_name := cfg_dim_array_index_header_enum_name c |}.
Definition set_dim_increment (v : number_format) (c : config) : config :=
  {| cfg_peripheral_name := cfg_peripheral_name c;
     cfg_peripheral_base_address := cfg_peripheral_base_address c;
     cfg_peripheral_sorting := cfg_peripheral_sorting c;
     cfg_address_block_offset := cfg_address_block_offset c;
     cfg_address_block_size := cfg_address_block_size c;
     cfg_interrupt_name := cfg_interrupt_name c;
     cfg_cluster_name := cfg_cluster_name c;
     cfg_cluster_address_offset := cfg_cluster_address_offset c;
     cfg_register_cluster_sorting := cfg_register_cluster_sorting c;
     cfg_register_name := cfg_register_name c;
     cfg_register_address_offset := cfg_register_address_offset c;
     cfg_register_size := cfg_register_size c;
     cfg_register_reset_value := cfg_register_reset_value c;
     cfg_register_reset_mask := cfg_register_reset_mask c;
     cfg_field_name := cfg_field_name c;
     cfg_field_bit_range := cfg_field_bit_range c;
     cfg_field_sorting := cfg_field_sorting c;
     cfg_enumerated_values_name := cfg_enumerated_values_name c;
     cfg_enumerated_value_name := cfg_enumerated_value_name c;
     cfg_enumerated_value_value := cfg_enumerated_value_value c;
     cfg_dim_dim := cfg_dim_dim c;
     cfg_dim_increment := v;
     cfg_dim_array_index_header_enum_name := cfg_dim_array_index_header_enum_name c |}.
Definition set_dim_array_index_header_enum_name (v : option id_format) (c : config) : config :=
  {| cfg_peripheral_name := cfg_peripheral_name c;
     cfg_peripheral_base_address := cfg_peripheral_base_address c;
     cfg_peripheral_sorting := cfg_peripheral_sorting c;
     cfg_address_block_offset := cfg_address_block_offset c;
     cfg_address_block_size := cfg_address_block_size c;
     cfg_interrupt_name := cfg_interrupt_name c;
     cfg_cluster_name := cfg_cluster_name c;
     cfg_cluster_address_offset := cfg_cluster_address_offset c;
     cfg_register_cluster_sorting := cfg_register_cluster_sorting c;
     cfg_register_name := cfg_register_name c;
     cfg_register_address_offset := cfg_register_address_offset c;
     cfg_register_size := cfg_register_size c;
     cfg_register_reset_value := cfg_register_reset_value c;
     cfg_register_reset_mask := cfg_register_reset_mask c;
     cfg_field_name := cfg_field_name c;
     cfg_field_bit_range := cfg_field_bit_range c;
     cfg_field_sorting := cfg_field_sorting c;
     cfg_enumerated_values_name := cfg_enumerated_values_name c;
     cfg_enumerated_value_name := cfg_enumerated_value_name c;
     cfg_enumerated_value_value := cfg_enumerated_value_value c;
     cfg_dim_dim := cfg_dim_dim c;
     cfg_dim_increment := cfg_dim_increment c;
     cfg_dim_array_index_header_enum_name := v |}.

(** update: config.rs:406-437. [value.parse().unwrap()] panics on a bad value; the
    message printed for an unknown name is not modelled. *)
Definition update (c : config) (name value : string) : res config :=
  if seqb name "peripheral_name" then
    let* v := unwrap (id_format_parse value) in Ok (set_peripheral_name (Some v) c)
  else if seqb name "peripheral_base_address" then
    let* v := unwrap (number_format_parse value) in Ok (set_peripheral_base_address v c)
  else if seqb name "peripheral_sorting" then
    let* v := unwrap (derivable_sorting_parse value) in Ok (set_peripheral_sorting v c)
  else if seqb name "address_block_offset" then
    let* v := unwrap (number_format_parse value) in Ok (set_address_block_offset v c)
  else if seqb name "address_block_size" then
    let* v := unwrap (number_format_parse value) in Ok (set_address_block_size v c)
  else if seqb name "interrupt_name" then
    let* v := unwrap (id_format_parse value) in Ok (set_interrupt_name (Some v) c)
  else if seqb name "cluster_name" then
    let* v := unwrap (id_format_parse value) in Ok (set_cluster_name (Some v) c)
  else if seqb name "cluster_address_offset" then
    let* v := unwrap (number_format_parse value) in Ok (set_cluster_address_offset v c)
  else if seqb name "register_cluster_sorting" then
    let* v := unwrap (rc_sorting_parse value) in Ok (set_register_cluster_sorting v c)
  else if seqb name "register_name" then
    let* v := unwrap (id_format_parse value) in Ok (set_register_name (Some v) c)
  else if seqb name "register_address_offset" then
    let* v := unwrap (number_format_parse value) in Ok (set_register_address_offset v c)
  else if seqb name "register_size" then
    let* v := unwrap (number_format_parse value) in Ok (set_register_size v c)
  else if seqb name "register_reset_value" then
    let* v := unwrap (number_format_parse value) in Ok (set_register_reset_value v c)
  else if seqb name "register_reset_mask" then
    let* v := unwrap (number_format_parse value) in Ok (set_register_reset_mask v c)
  else if seqb name "field_name" then
    let* v := unwrap (id_format_parse value) in Ok (set_field_name (Some v) c)
  else if seqb name "field_bit_range" then
    let* v := unwrap (bit_range_format_parse value) in Ok (set_field_bit_range (Some v) c)
  else if seqb name "field_sorting" then
    let* v := unwrap (derivable_sorting_parse value) in Ok (set_field_sorting v c)
  else if seqb name "enumerated_values_name" then
    let* v := unwrap (id_format_parse value) in Ok (set_enumerated_values_name (Some v) c)
  else if seqb name "enumerated_value_name" then
    let* v := unwrap (id_format_parse value) in Ok (set_enumerated_value_name (Some v) c)
  else if seqb name "enumerated_value_value" then
    let* v := unwrap (number_format_parse value) in Ok (set_enumerated_value_value v c)
  else if seqb name "dim_dim" then
    let* v := unwrap (number_format_parse value) in Ok (set_dim_dim v c)
  else if seqb name "dim_increment" then
    let* v := unwrap (number_format_parse value) in Ok (set_dim_increment v c)
  else if seqb name "dim_array_index_header_enum_name" then
    let* v := unwrap (id_format_parse value) in Ok (set_dim_array_index_header_enum_name (Some v) c)
  else Ok c.
