(** C78: the messages of errors. *)
From Verif Require Import Base Types Names Validate Builders Xml Parse ParseAt Expand Show SpecFault ShowProofs ShowMore PropFault.
Open Scope string_scope.

(** Every error of [r] has a message, the same in a checked and in an unchecked build. *)
Definition always_shown {A} (r : res A) : Prop := forall e, r = Err e -> exists text, forall m, show m e = Ok text.

(** C78. Making the message of an error never panics: errors of the parser, of expansion, of
    validation, of the builders and of updates. *)
Theorem C78_parse_shown : forall m cfg pos root e lines, parse_document m cfg pos root = Ok (inr (e, lines)) ->
  exists text, forall m', show m' e = Ok text.
Proof. exact parse_shown. Qed.
Print Assumptions C78_parse_shown.

Theorem C78_expand_shown : forall m fuel d, always_shown (expand m fuel d).
Proof. exact (fun m fuel d e H => show_ok e (expand_tells m fuel d e H)). Qed.
Print Assumptions C78_expand_shown.

Theorem C78_validate_shown : forall l,
  (forall x, always_shown (rp_validate l x)) /\ (forall x, always_shown (ev_validate l x)) /\
  (forall x, always_shown (evs_validate_all l x)) /\ (forall x, always_shown (field_validate_all l x)) /\
  (forall x, always_shown (register_validate_all l x)) /\ (forall x, always_shown (cluster_validate_all l x)) /\
  (forall x, always_shown (peripheral_validate_all l x)) /\ (forall x, always_shown (device_validate_all l x)).
Proof. exact validators_shown. Qed.
Print Assumptions C78_validate_shown.

Theorem C78_build_shown : forall l,
  (forall b, always_shown (rp_build l b)) /\ (forall b, always_shown (ev_build l b)) /\ (forall b, always_shown (evs_build l b)) /\
  (forall b, always_shown (de_build l b)) /\ (forall b, always_shown (field_build l b)) /\
  (forall b, always_shown (register_build l b)) /\ (forall b, always_shown (cluster_build l b)) /\
  (forall b, always_shown (ab_build l b)) /\ (forall b, always_shown (it_build l b)) /\
  (forall b, always_shown (peripheral_build l b)) /\ (forall b, always_shown (cpu_build l b)) /\
  (forall b, always_shown (device_build l b)).
Proof. exact builders_shown. Qed.
Print Assumptions C78_build_shown.

Theorem C78_modify_shown : forall l,
  (forall x b, always_shown (snd (rp_modify x b l))) /\ (forall x b, always_shown (snd (ev_modify x b l))) /\
  (forall x b, always_shown (snd (evs_modify x b l))) /\ (forall x b, always_shown (snd (de_modify x b l))) /\
  (forall x b, always_shown (snd (field_modify x b l))) /\ (forall x b, always_shown (snd (register_modify x b l))) /\
  (forall x b, always_shown (snd (cluster_modify x b l))) /\ (forall x b, always_shown (snd (ab_modify x b l))) /\
  (forall x b, always_shown (snd (it_modify x b l))) /\ (forall x b, always_shown (snd (peripheral_modify x b l))) /\
  (forall x b, always_shown (snd (cpu_modify x b l))) /\ (forall x b, always_shown (snd (device_modify x b l))).
Proof. exact modifiers_shown. Qed.
Print Assumptions C78_modify_shown.

(** Only an empty range makes the message panic, and only in a checked build; the theorems above
    say no such error is given out. *)
Theorem C78_only_panic : forall m e p, show m e = Panic p <->
  m = Debug /\ p = Overflow /\ exists v s, e = EEvOutOfRange v s 0.
Proof. exact shown_panics. Qed.
Print Assumptions C78_only_panic.

(** The message tells the error: two errors with the same message, from two documents or two
    devices, are the same, payload and all; except that the message about a name does not tell
    which tag the name was in. *)
Theorem C78_parse_unambiguous : forall m1 c1 p1 r1 e1 l1 m2 c2 p2 r2 e2 l2 m m' text,
  parse_document m1 c1 p1 r1 = Ok (inr (e1, l1)) -> parse_document m2 c2 p2 r2 = Ok (inr (e2, l2)) ->
  show m e1 = Ok text -> show m' e2 = Ok text ->
  e1 = e2 \/ exists name tag tag', e1 = EName name tag /\ e2 = EName name tag'.
Proof. exact parse_messages. Qed.
Print Assumptions C78_parse_unambiguous.

Theorem C78_expand_unambiguous : forall m1 f1 d1 m2 f2 d2 m m' e e' text,
  expand m1 f1 d1 = Err e -> expand m2 f2 d2 = Err e' -> show m e = Ok text -> show m' e' = Ok text -> e = e'.
Proof. exact expand_messages. Qed.
Print Assumptions C78_expand_unambiguous.

(** The interval in the message about an enumerated value is the values the field can have. *)
Theorem C78_range_message : forall m cfg pos root v s t lines m',
  parse_document m cfg pos root = Ok (inr (EEvOutOfRange v s t, lines)) ->
  exists w text, w < 64 /\ 2 ^ w <= v /\ show m' (EEvOutOfRange v s t) = Ok text /\
    text = "`EnumeratedValue error: Value " ++ to_string v ++ " out of range [0 - " ++ to_string (2 ^ w - 1) ++ "]".
Proof. exact range_message. Qed.
Print Assumptions C78_range_message.

(** The tag a name was in is not told. *)
Example C78_name_tag : EName "a b" "name" <> EName "a b" "derivedFrom" /\
  show Debug (EName "a b" "name") = show Debug (EName "a b" "derivedFrom").
Proof. split; [discriminate|reflexivity]. Qed.

Definition wide_value : xml :=
  Elem "" [] [Elem "device" [] [leaf "name" "Chip"; Elem "peripherals" []
    [Elem "peripheral" [] [leaf "name" "GPIO"; leaf "baseAddress" "0x40000000"; Elem "registers" []
      [Elem "register" [] [leaf "name" "CR"; leaf "addressOffset" "0"; Elem "fields" []
        [Elem "field" [] [leaf "name" "EN"; leaf "bitRange" "[4:2]"; Elem "enumeratedValues" []
          [Elem "enumeratedValue" [] [leaf "name" "ON"; leaf "value" "9"]]]]]]]]]].
Definition weak_config : pconfig := PConfig Weak false false false.
Example C78_case : exists e lines, parse_document Debug weak_config where_ wide_value = Ok (inr (e, lines)) /\
  e = EEvOutOfRange 9 0 8 /\
  show Debug e = Ok "`EnumeratedValue error: Value 9 out of range [0 - 7]".
Proof.
  exists (EEvOutOfRange 9 0 8), ["Parsing field `EN` at 0102020"; "In register `CR`"; "In peripheral `GPIO`"; "In device `Chip`"].
  vm_compute. auto.
Qed.
Example C78_texts :
  show Debug (EUnknownAccess "sometimes") = Ok "unknown access variant 'sometimes' found" /\
  show Debug (EParseInt IEmpty) = Ok "Failed to parse `cannot parse integer from empty string`" /\
  show Debug (EMaskConflict 255 15) = Ok "`RegisterProperties error: Reset value 0xff conflicts with mask '0xf'" /\
  show Debug (EEvValueAndDefault (Some 3)) =
    Ok "`EnumeratedValue error: EnumeratedValue with `value` (passed Some(3)) should not have `is_default(True)`" /\
  show Debug (ESelfDerived KField "T.CR.EN") = Ok "Field T.CR.EN is self-derived" /\
  show Debug (EIncorrectDimIndexesCount 4 3) = Ok "dimIndex tag must contain 4 indexes, found 3".
Proof. vm_compute. repeat split. Qed.
(** A message about an empty range would panic in a checked build. *)
Example C78_empty_range : show Debug (EEvOutOfRange 0 0 0) = Panic Overflow /\
  show Release (EEvOutOfRange 0 0 0) = Ok "`EnumeratedValue error: Value 0 out of range [0 - 18446744073709551615]".
Proof. vm_compute. auto. Qed.
