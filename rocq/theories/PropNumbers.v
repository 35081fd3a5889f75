(** C01, C02, C03: numbers and enumeration texts. *)
From Verif Require Import BaseFacts Types Num SpecNum NumProofs NumErrors EnumProofs.

(** C01. The text written for [n] in any format, trimmed as the parser does, reads
    back as [n], in a u32 and in a u64 position. *)
Theorem C01_number_round_trip : forall (f : number_format) (n : N),
  (n < 2 ^ 32 -> parse_num (2 ^ 32) (trim (format_number n f)) = Ok n) /\
  (n < 2 ^ 64 -> parse_num (2 ^ 64) (trim (format_number n f)) = Ok n).
Proof. exact (fun f n => conj (format_trim_parse (2 ^ 32) f n) (format_trim_parse (2 ^ 64) f n)). Qed.
Print Assumptions C01_number_round_trip.

Example C01_case : format_number 3735928559 UpperHex8 = "0xDEADBEEF" /\
  format_number 10 Bin = "0b1010" /\ format_number 255 LowerHex8 = "0x000000ff" /\
  parse_num (2 ^ 32) (trim (format_number 3735928559 UpperHex8)) = Ok 3735928559.
Proof. vm_compute. auto. Qed.

(** C02. The parser accepts exactly the number texts whose value fits, and returns the
    value; everything else is a parse error (never a panic). *)
Theorem C02_number_grammar : forall (bound : N) (s : string) (v : N), 0 < bound ->
  (parse_num bound s = Ok v <-> number_text s v /\ v < bound).
Proof. exact parse_num_spec. Qed.
Print Assumptions C02_number_grammar.

(** Everything else is an error, and the error says what is wrong with the text: nothing
    where the digits should be, a character that is no digit, or too many digits. *)
Theorem C02_number_error : forall (bound : N) (s : string), 0 < bound ->
  ((forall v, number_text s v -> ~ v < bound) <-> exists k, parse_num bound s = Err (EParseInt k)) /\
  (parse_num bound s = Err (EParseInt IEmpty) <-> nothing_to_read s) /\
  (parse_num bound s = Err (EParseInt IInvalidDigit) <-> stray_character bound s) /\
  (parse_num bound s = Err (EParseInt IPosOverflow) <-> too_many_digits bound s).
Proof. exact (fun bound s Hb => conj (number_rejected bound s Hb) (number_errors bound s Hb)). Qed.
Print Assumptions C02_number_error.

Example C02_cases : parse_num (2 ^ 32) "#1x0X" = Ok 8 /\ parse_num (2 ^ 32) "0x+fF" = Ok 255 /\
  parse_num (2 ^ 32) "4294967296" = Err (EParseInt IPosOverflow) /\ parse_num (2 ^ 64) "4294967296" = Ok 4294967296 /\
  parse_num (2 ^ 32) "42949672967z" = Err (EParseInt IPosOverflow) /\ parse_num (2 ^ 32) "429496z7296" = Err (EParseInt IInvalidDigit) /\
  parse_num (2 ^ 32) "0B1" = Err (EParseInt IInvalidDigit) /\ parse_num (2 ^ 32) "0bX" = Err (EParseInt IInvalidDigit) /\
  parse_num (2 ^ 32) "+" = Err (EParseInt IInvalidDigit) /\ parse_num (2 ^ 32) "0x" = Err (EParseInt IEmpty).
Proof. vm_compute. repeat split. Qed.

(** C03. Reading accepts exactly the written texts, and gives back the constant. *)
Theorem C03_enum_texts :
  (forall s x, access_parse s = Some x <-> s = access_str x) /\
  (forall s x, usage_parse s = Some x <-> s = usage_str x) /\
  (forall s x, data_type_parse s = Some x <-> s = data_type_str x) /\
  (forall s x, endian_parse s = Some x <-> s = endian_str x) /\
  (forall s x, read_action_parse s = Some x <-> s = read_action_str x) /\
  (forall s x, mwv_parse s = Some x <-> s = mwv_str x) /\
  (forall s x, protection_parse s = Some x <-> s = protection_str x) /\
  (forall s x, ab_usage_parse s = Some x <-> s = ab_usage_str x).
Proof.
  exact (conj access_text (conj usage_text (conj data_type_text (conj endian_text
         (conj read_action_text (conj mwv_text (conj protection_text ab_usage_text))))))).
Qed.
Print Assumptions C03_enum_texts.

(** The texts are those of the CMSIS-SVD schema. *)
Example C03_texts :
  map access_str [ReadOnly; ReadWrite; ReadWriteOnce; WriteOnly; WriteOnce]
    = ["read-only"; "read-write"; "read-writeOnce"; "write-only"; "writeOnce"] /\
  map usage_str [URead; UWrite; UReadWrite] = ["read"; "write"; "read-write"] /\
  map endian_str [Little; Big; Selectable; OtherEndian] = ["little"; "big"; "selectable"; "other"] /\
  map read_action_str [RaClear; RaSet; RaModify; RaModifyExternal]
    = ["clear"; "set"; "modify"; "modifyExternal"] /\
  map mwv_str [OneToClear; OneToSet; OneToToggle; ZeroToClear; ZeroToSet; ZeroToToggle; MClear; MSet; MModify]
    = ["oneToClear"; "oneToSet"; "oneToToggle"; "zeroToClear"; "zeroToSet"; "zeroToToggle";
       "clear"; "set"; "modify"] /\
  map protection_str [Secure; NonSecure; Privileged] = ["s"; "n"; "p"] /\
  map ab_usage_str [Registers; Buffer; Reserved] = ["registers"; "buffer"; "reserved"] /\
  map data_type_str [U8; U16; U32; U64; I8; I16; I32; I64]
    = ["uint8_t"; "uint16_t"; "uint32_t"; "uint64_t"; "int8_t"; "int16_t"; "int32_t"; "int64_t"] /\
  map data_type_str [U8Ptr; U16Ptr; U32Ptr; U64Ptr; I8Ptr; I16Ptr; I32Ptr; I64Ptr]
    = ["uint8_t *"; "uint16_t *"; "uint32_t *"; "uint64_t *"; "int8_t *"; "int16_t *"; "int32_t *"; "int64_t *"].
Proof. repeat split. Qed.
