(** The messages of errors: their Display texts. *)
From Verif Require Import Base.
Open Scope string_scope.

(** [{}] and [{:x}] of u32, u64, usize *)
Definition show_dec (n : N) : string := to_string n.
Definition show_hex (n : N) : string := fmt_radix false 16 n.

(** core::num::ParseIntError (std) *)
Definition show_int_error (k : int_error) : string :=
  match k with
  | IEmpty => "cannot parse integer from empty string"
  | IInvalidDigit => "invalid digit found in string"
  | IPosOverflow => "number too large to fit in target type"
  end.
(** [{:?}] of Option<u64> *)
Definition show_option (o : option N) : string :=
  match o with Some n => "Some(" ++ show_dec n ++ ")" | None => "None" end.
(** expand.rs:402, 437, 472, 572, 609, 637 *)
Definition show_kind (k : ekind) : string :=
  match k with
  | KPeripheral => "Peripheral" | KCluster => "Cluster" | KRegister => "Register" | KField => "Field"
  | KValues => "EnumeratedValues"
  end.
(** expand.rs:407, 442, 477, 624, 644 *)
Definition show_kind_lower (k : ekind) : string :=
  match k with
  | KPeripheral => "peripheral" | KCluster => "cluster" | KRegister => "register" | KField => "field"
  | KValues => "enumeratedValues"
  end.

(** The text after the wrapper of svd-rs/src/lib.rs:132-171. *)
Definition wrapped (what text : string) : string := "`" ++ what ++ " error: " ++ text.

(** svd-rs/src/lib.rs:132-187; the Error enums of bitrange.rs:3-7, enumeratedvalues.rs:39-44,
    peripheral.rs:16-21, cluster.rs:16-21, field.rs:13-18, register.rs:13-18, device.rs:7-12,
    writeconstraint.rs:32-40, enumeratedvalue.rs:33-45, registerproperties.rs:4-15;
    svd-parser/src/lib.rs:223-267; the anyhow! texts of expand.rs. The subtraction in the text of
    an enumerated value out of range (enumeratedvalue.rs:43) is done when the text is made. Left
    out: the debug text of the parent field at the end of expand.rs:624 (`, parent field: ...`), and
    the texts of the data format's own errors ([EDeserialize]). *)
Definition show (m : mode) (e : err) : res string :=
  match e with
  | EUninitialized k => Ok (wrapped "Build" ("`" ++ k ++ "` must be initialized"))
  | EName n _ => Ok (wrapped "Name check" ("Name `" ++ n ++ "` contains unexpected symbol"))
  | EEmptyDevice => Ok (wrapped "Device" "Device must contain at least one peripheral")
  | EEmptyRegisters => Ok (wrapped "Peripheral" "Peripheral have `registers` tag, but it is empty")
  | EEmptyCluster => Ok (wrapped "Cluster" "Cluster must contain at least one Register or Cluster")
  | EEmptyFields => Ok (wrapped "Register" "Register have `fields` tag, but it is empty")
  | EIncompatibleUsages => Ok (wrapped "Field" "You can have 0, 1 or 2 enumeratedValues with different usage")
  | EZeroWidth => Ok (wrapped "BitRange" "bitRange width of 0 does not make sense")
  | EEvAbsentValue => Ok (wrapped "EnumeratedValue" "EnumeratedValue has no `value` or `is_default`")
  | EEvValueAndDefault v =>
      Ok (wrapped "EnumeratedValue"
            ("EnumeratedValue with `value` (passed " ++ show_option v ++ ") should not have `is_default(True)`"))
  | EEvOutOfRange v start end_ =>
      let* last := sub_w pow64 m end_ 1 in
      Ok (wrapped "EnumeratedValue"
            ("Value " ++ show_dec v ++ " out of range [" ++ show_dec start ++ " - " ++ show_dec last ++ "]"))
  | EEvsEmpty => Ok (wrapped "EnumeratedValues" "EnumeratedValues is empty")
  | EValueTooLarge v s =>
      Ok (wrapped "RegisterProperties" ("Reset value 0x" ++ show_hex v ++ " doesn't fit in " ++ show_dec s ++ " bits"))
  | EMaskConflict v k =>
      Ok (wrapped "RegisterProperties" ("Reset value 0x" ++ show_hex v ++ " conflicts with mask '0x" ++ show_hex k ++ "'"))
  | EMaskTooLarge k s =>
      Ok (wrapped "RegisterProperties" ("Mask value 0x" ++ show_hex k ++ " doesn't fit in " ++ show_dec s ++ " bits"))
  | EWcOutOfRange v start end_ =>
      Ok (wrapped "WriteConstraint" ("Value " ++ show_dec v ++ " out of range " ++ show_dec start ++ ".." ++ show_dec end_))
  | EWcReversedRange a b =>
      Ok (wrapped "WriteConstraint" ("Range minimum " ++ show_dec a ++ " is greater than maximum " ++ show_dec b))
  | EMissingTag k => Ok ("Expected a <" ++ k ++ "> tag, found none")
  | EEmptyTag k => Ok ("Expected content in <" ++ k ++ "> tag, found none")
  | EParseInt k => Ok ("Failed to parse `" ++ show_int_error k ++ "`")
  | EUnknownEndian s => Ok ("Unknown endianness `" ++ s ++ "`")
  | EUnknownAccess s => Ok ("unknown access variant '" ++ s ++ "' found")
  | EInvalidBitRangeSyntax => Ok "Bit range invalid, Syntax"
  | EInvalidBitRangeParse => Ok "Bit range invalid, ParseError"
  | EInvalidBitRangeMsbLsb => Ok "Bit range invalid, MsbLsb"
  | EInvalidBitRangeEmpty => Ok "Bit range invalid, Empty"
  | EInvalidBitRangeSize => Ok "Bit range invalid, Size"
  | EUnknownWriteConstraint => Ok "Unknown write constraint"
  | EMoreThanOneWriteConstraint => Ok "Multiple wc found"
  | EUnknownUsage => Ok "Unknown usage variant"
  | EUnknownAbUsage => Ok "Unknown usage variant for addressBlock"
  | ENotExpectedTag k => Ok ("Expected a <" ++ k ++ ">, found ...")
  | EInvalidRegisterCluster k => Ok ("Invalid RegisterCluster (expected register or cluster), found " ++ k)
  | EUnknownDataType s => Ok ("Invalid datatype variant, found " ++ s)
  | EUnknownMwv s => Ok ("Invalid modifiedWriteValues variant, found " ++ s)
  | EUnknownReadAction s => Ok ("Invalid readAction variant, found " ++ s)
  | EUnknownProtection s => Ok ("Invalid protection variant, found " ++ s)
  | EInvalidBool s =>
      Ok ("The content of the element could not be parsed to a boolean value " ++ s ++
          ": provided string was not `true` or `false`")
  | EIncorrectDimIndexesCount d c => Ok ("dimIndex tag must contain " ++ show_dec d ++ " indexes, found " ++ show_dec c)
  | EDimIndexParse => Ok "Failed to parse dimIndex"
  | EMissingPlaceholder n t => Ok ("Name `" ++ n ++ "` in tag `" ++ t ++ "` is missing a %s placeholder")
  | ESelfDerived k p => Ok (show_kind k ++ " " ++ p ++ " is self-derived")
  | ENotFound k p => Ok (show_kind_lower k ++ " " ++ p ++ " not found")
  | EDeserialize => Ok ""
  end.
