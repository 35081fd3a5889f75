(** C70-C72: where a parse error is reported, whether it is true, and how it is told. *)
From Verif Require Import Base Types Xml Parse ParseAt AtProofs SpecNum SpecArray SpecText SpecXml SpecValidate SpecParse
  SpecFault FaultProofs FaultAll ReportProofs.

(** C70: telling where an error is does not change what is parsed, and never panics. *)
Theorem C70_same_parser : forall m cfg pos root,
  (forall d, parse_document m cfg pos root = Ok (inl d) <->
     exists x, first_child "device" root x /\ device_parse m cfg x = Ok d) /\
  (forall e, (exists lines, parse_document m cfg pos root = Ok (inr (e, lines))) <->
     (no_child "device" root /\ e = EMissingTag "device") \/
     exists x, first_child "device" root x /\ device_parse m cfg x = Err e) /\
  (forall p, parse_document m cfg pos root = Panic p <->
     exists x, first_child "device" root x /\ device_parse m cfg x = Panic p).
Proof.
  intros m cfg pos root. split; [exact (document_ok m cfg pos root)|]. split; [exact (document_err m cfg pos root)|exact (document_panic m cfg pos root)].
Qed.
Print Assumptions C70_same_parser.

(** C71: the error is true of the node it is reported at, which is in the document. *)
Theorem C71_true_where_reported : forall m cfg w n e v, named "device" n -> device_at m cfg w n = LErr e v ->
  exists s path x, v = w ++ s /\ trail n s (path ++ [x]) /\ fault (pc_level cfg) e x.
Proof. exact blamed_trail. Qed.
Print Assumptions C71_true_where_reported.
(** In particular: a reported missing tag is one of the few required; there are no errors of
    other entry points; and a relaxed level gives no error of a stricter one. *)
Theorem C71_levels : forall m cfg w n e v, named "device" n -> device_at m cfg w n = LErr e v ->
  (e = EIncompatibleUsages \/ (exists v, e = EEvValueAndDefault v) \/ e = EEmptyRegisters \/ e = EEmptyCluster \/ e = EEmptyFields \/
   (exists s k, e = EName s k) \/ (exists k, e = EUninitialized k) \/ (exists k s, e = EMaskTooLarge k s) \/
   (exists r k, e = EMaskConflict r k) -> pc_level cfg = Strict) /\
  (e = EZeroWidth \/ e = EEvAbsentValue \/ e = EEvsEmpty \/ e = EEmptyDevice \/ (exists a b c, e = EEvOutOfRange a b c) \/
   (exists a b, e = EWcReversedRange a b) \/ (exists a b c, e = EWcOutOfRange a b c) \/ (exists r s, e = EValueTooLarge r s) ->
   pc_level cfg <> Disabled) /\
  ~ (exists k s, e = ESelfDerived k s) /\ ~ (exists k s, e = ENotFound k s) /\ e <> EDeserialize.
Proof. exact blamed_levels. Qed.
Print Assumptions C71_levels.

(** C72: the report names the element of the error, where it is in the text, and every element
    around it that has a name worth telling, from the inside out up to the device. *)
Theorem C72_report : forall m cfg pos root e lines, parse_document m cfg pos root = Ok (inr (e, lines)) ->
  (no_child "device" root /\ e = EMissingTag "device" /\ lines = []) \/
  exists i dev s ns node line rest,
    nth_error (children root) i = Some dev /\ first_child "device" root dev /\ trail dev s (ns ++ [node]) /\
    fault (pc_level cfg) e node /\
    lines = line :: rest /\ introduces (pos (i :: s)) node line /\ mentioned (rev ns) rest.
Proof. exact report_error. Qed.
Print Assumptions C72_report.

Definition leaf (k s : string) : xml := Elem k [] [Text s].
Definition bad_field : xml :=
  Elem "field" [] [Text " "; leaf "name" "EN"; leaf "bitRange" "[0:0]"; leaf "access" "sometimes"].
Definition bad_document : xml :=
  Elem "" [] [Misc; Elem "device" []
    [leaf "name" "Chip"; Elem "peripherals" []
      [Elem "peripheral" [] [leaf "name" "GPIO"; leaf "baseAddress" "0x40000000"; Elem "registers" []
        [Elem "cluster" [] [leaf "name" "C"; leaf "addressOffset" "0";
          Elem "register" [] [leaf "name" "CR"; leaf "addressOffset" "0"; Elem "fields" [] [Misc; bad_field]]]]]]]].
Definition where_ (w : ParseAt.place) : string := fold_left (fun s i => String.append s (String (ascii_of_nat (48 + i)) "")) w ""%string.
Definition lax : pconfig := PConfig Disabled false false false.
(** The element with the bad text, and the elements around it; the cluster is not told. *)
Example C72_case : parse_document Debug lax where_ bad_document = Ok (inr (EUnknownAccess "sometimes",
  ["Parsing unknown access at 110202213"; "In field `EN`"; "In register `CR`"; "In peripheral `GPIO`"; "In device `Chip`"]%string)).
Proof. vm_compute. reflexivity. Qed.
Example C72_none : parse_document Debug lax where_ (Elem "" [] [Misc]) = Ok (inr (EMissingTag "device", [])).
Proof. reflexivity. Qed.
Example C71_case : device_at Debug lax [1]%nat (nth 1 (children bad_document) Misc) = LErr (EUnknownAccess "sometimes") [1; 1; 0; 2; 0; 2; 2; 1; 3]%nat /\
  fault Disabled (EUnknownAccess "sometimes") (leaf "access" "sometimes").
Proof.
  split; [vm_compute; reflexivity|]. split; [now exists [], [Text "sometimes"]|].
  split; [|cbn; intuition discriminate]. apply XmlFacts.get_text_content. reflexivity.
Qed.
(** A device without faults parses. *)
Example C70_case : exists d, parse_document Debug lax where_ (Elem "" [] [Elem "device" [] [leaf "name" "Chip"; Elem "peripherals" [] []]]) = Ok (inl d).
Proof. eexists. reflexivity. Qed.
