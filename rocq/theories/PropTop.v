(** C01 and C59: the texts of numbers and booleans. C47 and C60: the entry points. *)
From Verif Require Import Base BaseFacts Num Types Validate Config Xml Encode Parse Expand SpecArray SpecNum SpecShape ShapeProofs
  SpecValidate SpecParse SpecExpand SpecFlat SpecProps SpecRound SpecBuild SpecLayout LayoutProofs SpecMarkup MarkupProofs MarkupOrder PropExpand PropParse PropRound Top TopProofs.
From Verif Require PropOrder SpecOrder.

(** ** C01: exactly what is written *)
Theorem C01_text : forall f n, number_shape f n (format_number n f).
Proof. exact format_shape. Qed.
Print Assumptions C01_text.
Example C01_texts : format_number 48879 LowerHex8 = "0x0000beef"%string /\ format_number 48879 UpperHex = "0xBEEF"%string /\
  format_number 0 Dec = "0"%string /\ format_number 5 Bin = "0b101"%string /\
  format_number 4294967296 UpperHex16 = "0x0000000100000000"%string /\
  ~ laid_out false 16 8 "0000BEEF" 48879 /\ ~ laid_out true 16 1 "0BEEF" 48879.
Proof.
  conjs; try reflexivity.
  - intros (D & _). destruct D as (ds & _ & F & _). cbn in F. repeat match goal with H : Forall2 _ (_ :: _) _ |- _ => inversion H; clear H; subst end.
    match goal with H : digit 16 "B"%char _ /\ _ |- _ => destruct H as [_ C] end. repeat (destruct C as [C|C]; [discriminate|]). destruct C.
  - intros (_ & _ & Z). apply (Z ltac:(cbn; lia) "BEEF"%string eq_refl).
Qed.

(** ** C59 *)
Theorem C59_boolean : forall s b, parse_bool s = Ok b <-> boolean_text s b.
Proof. exact parse_bool_spec. Qed.
Print Assumptions C59_boolean.
Theorem C59_boolean_error : forall s, (forall b, ~ boolean_text s b) -> parse_bool s = Err (EInvalidBool s).
Proof. exact parse_bool_error. Qed.
Print Assumptions C59_boolean_error.
Example C59_example : parse_bool "1" = Ok true /\ forall b, ~ boolean_text "True" b.
Proof. split; [reflexivity|]. intros b H. inversion H. Qed.

(** ** C47: the byte order mark *)
Theorem C47_mark : forall m fuel document cfg t, (forall u, t <> utf8_mark ++ u)%string ->
  parse_with_config m fuel document cfg (utf8_mark ++ t) = parse_with_config m fuel document cfg t.
Proof. intros m fuel document cfg t H. unfold parse_with_config. now rewrite trim_bom_mark, trim_bom_plain. Qed.
Print Assumptions C47_mark.
(** What reaches the XML reader: the text without its first mark, if it has one. *)
Theorem C47_trim : (forall t, trim_utf8_bom (utf8_mark ++ t) = t) /\
  forall s, (forall t, s <> utf8_mark ++ t)%string -> trim_utf8_bom s = s.
Proof. split; [exact trim_bom_mark|exact trim_bom_plain]. Qed.
Print Assumptions C47_trim.
(** Only one mark is taken away. *)
Theorem C47_twice_refuted : exists document t, forall m fuel cfg,
  parse_with_config m fuel document cfg (utf8_mark ++ t) <> parse_with_config m fuel document cfg t.
Proof.
  exists (fun s => if (String.length s =? 1)%nat then Err (EMissingTag "one") else Err (EMissingTag "other")), (utf8_mark ++ "<")%string.
  intros m fuel cfg. unfold parse_with_config. rewrite trim_bom_mark, (trim_bom_mark "<"). discriminate.
Qed.
Print Assumptions C47_twice_refuted.
Example C47_example : (forall u, "<device/>" <> utf8_mark ++ u)%string /\ String.length utf8_mark = 3%nat.
Proof. split; [discriminate|reflexivity]. Qed.

(** ** C60: what parse_with_config delivers *)
(** Expanded if asked for: no arrays, no clusters, no derivations left. *)
Theorem C60_expanded : forall m fuel document cfg s d, pc_expand cfg = true ->
  parse_with_config m fuel document cfg s = Ok d -> flat_device d.
Proof.
  intros m fuel document cfg s d X H. destruct (entry_cases _ _ _ _ _ _ H) as (root & n & d0 & _ & _ & _ & E).
  rewrite X in E. eapply C32_flat; exact E.
Qed.
Print Assumptions C60_expanded.
(** Valid at the level asked for, unless an expansion is asked for (C61). *)
Theorem C60_valid : forall m fuel document cfg s d, pc_expand cfg = false -> pc_expand_properties cfg = false ->
  parse_with_config m fuel document cfg s = Ok d -> device_validate_all (pc_level cfg) d = Ok tt.
Proof.
  intros m fuel document cfg s d X Y H. destruct (entry_cases _ _ _ _ _ _ H) as (root & n & d0 & _ & _ & P & E).
  rewrite X, Y in E. injection E as <-. eapply C44_validate_all; exact P.
Qed.
Print Assumptions C60_valid.
(** The properties are those of the description without the option, filled in as C39 says. *)
Theorem C60_filled : forall m fuel document l g s d, 
  let cfg b := {| pc_level := l; pc_expand := false; pc_expand_properties := b; pc_ignore_enums := g |} in
  parse_with_config m fuel document (cfg true) s = Ok d <->
  exists d0, parse_with_config m fuel document (cfg false) s = Ok d0 /\ d = expand_properties d0.
Proof.
  intros m fuel document l g s d cfg. unfold parse_with_config.
  destruct (document _) as [root| |]; cbn [bind]; [|split; [discriminate|intros (? & H & _); discriminate]..].
  destruct (get_child "device" root) as [n|]; cbn [ok_or bind]; [|split; [discriminate|intros (? & H & _); discriminate]].
  change (device_parse m (cfg true) n) with (device_parse m (cfg false) n).
  destruct (device_parse m (cfg false) n) as [d0| |]; cbn [bind]; [|split; [discriminate|intros (? & H & _); discriminate]..].
  cbn. split; [intros [= <-]; eauto|intros (? & [= <-] & ->); reflexivity].
Qed.
Print Assumptions C60_filled.
(** A document without a device. *)
Theorem C60_missing : forall m fuel document cfg s root, document (trim_utf8_bom s) = Ok root ->
  (forall a l, ~ In (Elem "device" a l) (children root)) ->
  parse_with_config m fuel document cfg s = Err (EMissingTag "device").
Proof.
  intros m fuel document cfg s root D N. unfold parse_with_config. rewrite D. cbn [bind].
  destruct (get_child "device" root) as [n|] eqn:E; [|reflexivity].
  unfold get_child in E. apply find_first_some in E as (l1 & l2 & Q & T & _). assert (I : In n (children root)) by (rewrite Q; apply in_or_app; right; now left). destruct n as [t a l| |]; try discriminate.
  cbn in T. apply seqb_eq in T as ->. destruct (N a l I).
Qed.
Print Assumptions C60_missing.
(** The panics that can happen, provided the XML reader does not panic. *)
Theorem C60_panics : forall m fuel document cfg s p, (forall x q, document x <> Panic q) ->
  parse_with_config m fuel document cfg s = Panic p -> p = Unwrap \/ p = OutOfFuel \/ (p = Overflow /\ m = Debug).
Proof. intros m fuel document cfg s p D. now apply entry_panics. Qed.
Print Assumptions C60_panics.
(** Writing and reading as text, provided the XML writer and reader agree on the tree up to
    layout (C45): the writer indents. *)
Definition agree (print : xml -> string) (document : string -> res xml) (n : xml) : Prop :=
  (exists before n' after, document (print n) = Ok (Elem "" [] (before ++ n' :: after)) /\
     Forall (fun x => is_element x = false) before /\ same_layout n n') /\
  forall u, (print n <> utf8_mark ++ u)%string.
Lemma agree_read print document m fuel pcfg n : agree print document n -> tag n = "device"%string ->
  parse_with_config m fuel document pcfg (print n) =
    let* d := device_parse m pcfg n in
    let d := if pc_expand_properties pcfg then expand_properties d else d in
    if pc_expand pcfg then expand m fuel d else Ok d.
Proof.
  intros [(before & n' & after & A & F & L) B] T. unfold parse_with_config. rewrite trim_bom_plain by apply B. rewrite A. cbn [bind].
  assert (G : get_child "device" (Elem "" [] (before ++ n' :: after)) = Some n').
  { unfold get_child. cbn [children]. clear A. induction F as [|x l X F IH]; cbn [app find_first].
    - inversion L; subst. cbn in T. subst. reflexivity.
    - destruct x; [discriminate| |]; exact IH. }
  rewrite G. cbn [ok_or bind]. now rewrite (same_device m pcfg n n' L).
Qed.
Theorem C60_round_trip : forall m m' fuel conv print document cfg pcfg d,
  (forall n, device_encode m conv cfg d = Ok n -> agree print document n) ->
  no_cases cfg -> in_place cfg -> pc_ignore_enums pcfg = false -> pc_expand pcfg = false -> pc_expand_properties pcfg = false ->
  device_fits (pc_level pcfg) d -> (forall s e, array_in_device d s e -> calm m e) ->
  exists s, encode_with_config m conv print d cfg = Ok s /\ parse_with_config m' fuel document pcfg s = Ok d.
Proof.
  intros m m' fuel conv print document cfg pcfg d D K P I X Y F C.
  destruct (C41_round_trip m m' conv cfg pcfg d K P I F C) as (n & E & R).
  exists (print n). unfold encode_with_config. rewrite E. split; [reflexivity|].
  rewrite (agree_read _ _ _ _ _ _ (D n E)), R; [|exact (proj1 (PropOrder.C74_device _ _ _ _ _ E))]. cbn [bind]. now rewrite X, Y.
Qed.
Print Assumptions C60_round_trip.
(** The functions without a configuration use the default one. *)
Theorem C60_default : forall m m' fuel conv print document d,
  (forall n, device_encode m conv config_default d = Ok n -> agree print document n) ->
  device_fits Weak d -> (forall s e, array_in_device d s e -> calm m e) ->
  exists s, encode m conv print d = Ok s /\ parse m' fuel document s = Ok d.
Proof. intros. apply C60_round_trip; auto; unfold no_cases, in_place; repeat split. Qed.
Print Assumptions C60_default.

(** A reader that knows one document, [doc] of PropParse, with a comment before it. *)
Definition reads (s : string) : res xml :=
  if seqb s "<device/>" then Ok (Elem "" [] [Misc; doc]) else if seqb s "<x/>" then Ok (Elem "" [] [Elem "x" [] []]) else Err (EMissingTag "xml").
Definition asks (x y : bool) : pconfig := {| pc_level := Strict; pc_expand := x; pc_expand_properties := y; pc_ignore_enums := false |}.
Example C60_example : (forall x q, reads x <> Panic q) /\
  parse_with_config Debug 9 reads (asks false false) (utf8_mark ++ "<device/>") = Ok described /\
  parse_with_config Debug 9 reads (asks true true) "<x/>" = Err (EMissingTag "device") /\
  exists d, parse_with_config Debug 9 reads (asks true true) "<device/>" = Ok d /\ d <> described.
Proof.
  conjs; [intros x q; unfold reads; repeat destruct (seqb _ _); discriminate|vm_compute; reflexivity|reflexivity|].
  eexists. split; [vm_compute; reflexivity|]. intros E; vm_compute in E; discriminate E.
Qed.
(** An indented text form with escapes, and a reader of it (SpecMarkup.v), agree on everything the
    encoder makes, up to characters XML cannot hold... *)
Lemma text_agree m conv cfg d n : device_encode m conv cfg d = Ok n -> plain_tree n -> agree write_text read_text n.
Proof.
  intros E P. destruct (PropOrder.C74_device _ _ _ _ _ E) as [T O].
  assert (N : is_xml_name (SpecOrder.name_of n) = true) by (rewrite T; reflexivity).
  destruct (text_read n (order_tidy n O P N) P) as (n' & R & L). split; [|discriminate].
  exists [], n', []. conjs; [exact R|constructor|exact L].
Qed.
(** ...so that with these, what is written is read. *)
Theorem C60_text : forall m m' fuel conv cfg pcfg d,
  (forall n, device_encode m conv cfg d = Ok n -> plain_tree n) ->
  no_cases cfg -> in_place cfg -> pc_ignore_enums pcfg = false -> pc_expand pcfg = false -> pc_expand_properties pcfg = false ->
  device_fits (pc_level pcfg) d -> (forall s e, array_in_device d s e -> calm m e) ->
  exists s, encode_with_config m conv write_text d cfg = Ok s /\ parse_with_config m' fuel read_text pcfg s = Ok d.
Proof. intros m m' fuel conv cfg pcfg d P. apply C60_round_trip. intros n E. exact (text_agree _ _ _ _ _ E (P n E)). Qed.
Print Assumptions C60_text.
Definition written : xml := Eval vm_compute in match device_encode Debug (fun _ s => s) config_default described with Ok n => n | _ => Misc end.
Lemma described_written n : device_encode Debug (fun _ s => s) config_default described = Ok n -> plain_tree n.
Proof.
  intros E. assert (W : device_encode Debug (fun _ s => s) config_default described = Ok written) by (vm_compute; reflexivity).
  rewrite W in E. injection E as <-. apply plain_treeb_ok. vm_compute. reflexivity.
Qed.
Example C60_round_trip_example : device_fits Strict described /\
  (forall n, device_encode Debug (fun _ s => s) config_default described = Ok n -> plain_tree n) /\
  (forall n, device_encode Debug (fun _ s => s) config_default described = Ok n -> agree write_text read_text n) /\
  exists s, encode Debug (fun _ s => s) write_text described = Ok s /\ parse_with_config Debug 9 read_text (asks false false) s = Ok described /\
    read_text s <> Ok (Elem "" [] [written]).
Proof.
  split; [exact described_fits|]. split; [exact described_written|]. split; [intros n E; exact (text_agree _ _ _ _ _ E (described_written n E))|].
  eexists. split; [vm_compute; reflexivity|]. split; [vm_compute; reflexivity|]. intros E; vm_compute in E; discriminate E.
Qed.
