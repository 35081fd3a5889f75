(** C82: what makes writing a device panic. *)
From Verif Require Import Base BaseFacts Types Config Xml Encode Parse Serde SpecNum SpecArray SpecParse SpecSort SpecRound SpecSerde SpecWriting
  WritingProofs SurviveProofs PropExpand PropParse PropRound Top.

(** A device is written unless something in it cannot be, and then the panic is one of the expected. The
    assumption only says that the number of elements of an array is a u32. *)
Theorem C82_exact : forall m conv cfg d, (forall s a, array_in_device d s a -> de_dim a < 2 ^ 32) ->
  ((exists n, device_encode m conv cfg d = Ok n) <-> forall p, ~ unwritable m cfg d p) /\
  (forall p, device_encode m conv cfg d = Panic p -> unwritable m cfg d p) /\
  forall e, device_encode m conv cfg d <> Err e.
Proof.
  intros m conv cfg d B. destruct (device_says m conv cfg d B) as [(n & -> & N)|(p & -> & P)]; conjs; try discriminate.
  - split; eauto.
  - split; [intros (n & E); discriminate|]. intros N. destruct (N p P).
  - intros q E. injection E as <-. exact P.
Qed.
Print Assumptions C82_exact.
(** The same for the text. *)
Theorem C82_text : forall m conv print cfg d, (forall s a, array_in_device d s a -> de_dim a < 2 ^ 32) ->
  ((exists t, encode_with_config m conv print d cfg = Ok t) <-> forall p, ~ unwritable m cfg d p) /\
  (forall p, encode_with_config m conv print d cfg = Panic p -> unwritable m cfg d p).
Proof.
  intros m conv print cfg d B. unfold encode_with_config.
  destruct (device_says m conv cfg d B) as [(n & -> & N)|(p & -> & P)]; cbn [bind]; split; try discriminate.
  - split; eauto.
  - split; [intros (n & E); discriminate|]. intros N. destruct (N p P).
  - intros q E. injection E as <-. exact P.
Qed.
Print Assumptions C82_text.

Lemma held_small J B d s a : device_holds J B d -> array_in_device d s a -> de_dim a < 2 ^ 32.
Proof.
  assert (R : forall r n e, register_holds J B r -> array_in_register r n e -> de_dim e < 2 ^ 32).
  { intros r n e (_ & _ & _ & H) [fs f e' E I]. rewrite E in H. cbn in H. rewrite Forall_forall in H. apply (H _ I). }
  assert (C : forall rc n e, rc_holds J B rc -> array_in_rc rc n e -> de_dim e < 2 ^ 32).
  { intros rc n e H A. induction A as [r e|r n e A|c e|c rc n e I A IH]; inversion H as [r' H'|c' H' K]; subst.
    - apply H'.
    - apply (R (info r) n e); [|exact A]. now destruct r; apply H'.
    - apply H'.
    - rewrite Forall_forall in K. apply IH, K, I. }
  intros (_ & _ & _ & _ & H) [p e I|p n e I [rcs rc n' e' E I' A]]; rewrite Forall_forall in H; specialize (H _ I).
  - apply H.
  - assert (P : peripheral_holds J B (info p)) by (destruct p; apply H). destruct P as (_ & _ & _ & _ & P).
    rewrite E in P. cbn in P. rewrite Forall_forall in P. apply (C rc n' e'); auto.
Qed.
(** A device that was read has index lists of the right length: an unchecked build always writes it, ... *)
Theorem C82_parsed : forall m m' conv cfg pcfg n d, device_parse m' pcfg n = Ok d ->
  (m = Release -> exists n', device_encode m conv cfg d = Ok n') /\
  forall p, device_encode m conv cfg d = Panic p -> m = Debug /\ p = Overflow.
Proof.
  intros m m' conv cfg pcfg n d P.
  assert (B : forall s a, array_in_device d s a -> de_dim a < 2 ^ 32).
  { intros s a. apply held_small with indexes_in (fun _ => True). eapply device_num; eauto. }
  assert (F : forall p, unwritable m cfg d p -> m = Debug /\ p = Overflow).
  { intros p [ | | | |s a is A D (L & _)|]; auto. destruct (C11_arrays _ _ _ _ _ _ P A) as [_ X]. rewrite (X is D) in L. lia. }
  destruct (C82_exact m conv cfg d B) as (X & Y & _). split.
  - intros ->. apply X. intros p U. destruct (F p U). discriminate.
  - intros p E. apply F. now apply Y.
Qed.
Print Assumptions C82_parsed.
(** ... and a checked build with the default configuration unless an index list has both ends of the range of
    numbers, or a field ends past the last bit. *)
Theorem C82_default : forall conv m' pcfg n d, device_parse m' pcfg n = Ok d ->
  (forall s a is, array_in_device d s a -> de_index a = Some is -> ~ (In "0"%string is /\ In "4294967295"%string is)) ->
  (forall r fs f, register_of d r -> r_fields (info r) = Some fs -> In f fs -> br_type (f_bit_range (info f)) <> BRT_OffsetWidth ->
     ~ no_last_bit (f_bit_range (info f))) ->
  exists n', device_encode Debug conv config_default d = Ok n'.
Proof.
  intros conv m' pcfg n d P I F.
  assert (B : forall s a, array_in_device d s a -> de_dim a < 2 ^ 32).
  { intros s a. apply held_small with indexes_in (fun _ => True). eapply device_num; eauto. }
  apply (C82_exact Debug conv config_default d B). intros p U.
  destruct U as [g M T U|y rcs g M Y E T U|r fs g M R E T U|r fs f M R E Y L N|s a is A D (L & _)|s a is M A D (_ & _ & X & Y)].
  - destruct T as [(X & _)|(X & _)]; discriminate X.
  - destruct T as [(X & _)|(X & _)]; discriminate X.
  - destruct T as [(X & _)|(X & _)]; discriminate X.
  - destruct L as [(_ & X)|(t & X & _)]; [|discriminate X]. exact (F r fs f R E Y X N).
  - destruct (C11_arrays _ _ _ _ _ _ P A) as [_ X]. rewrite (X is D) in L. lia.
  - apply (I s a is A D).
    assert (Z : forall x, In x (firstn (N.to_nat (de_dim a)) is) -> In x is).
    { intros x H. rewrite <- (firstn_skipn (N.to_nat (de_dim a)) is). apply in_or_app. now left. }
    split; now apply Z.
Qed.
Print Assumptions C82_default.
(** One device for each reason. *)
Definition sized (bits : bit_range) : field := Single (FieldInfo "F" None bits None None None None [] None).
Definition one_register (fs : list field) : device := a_device [Single (a_peripheral "P" 0 (Some [RCRegister (Single (a_register "R" 0 (Some fs) None))]) None)].
Definition arrayed (n : N) (is : list string) : device :=
  a_device [Array (a_peripheral "P%s" 0 None None) (DimElement n 4 (Some is) None None)].
Definition at_middle (b : N) : device := a_device [Single (a_peripheral "P" 2147483648 None None); Single (a_peripheral "Q" b None (Some "P"%string))].
Definition downwards (derived_last : bool) : config :=
  set_peripheral_sorting ((if derived_last then DeriveLast else Unchanged) (Some ByOffsetReversed)) config_default.
Notation plain := (fun (_ : id_format) (s : string) => s).
Example C82_example :
  (exists n, device_encode Debug plain config_default described = Ok n) /\
  device_encode Debug plain config_default (one_register [sized (BitRange 0 0 BRT_BitRange)]) = Panic Overflow /\
  unwritable Debug config_default (one_register [sized (BitRange 0 0 BRT_BitRange)]) Overflow /\
  device_encode Release plain config_default (arrayed 3 ["0"; "1"]%string) = Panic OutOfBounds /\
  unwritable Release config_default (arrayed 3 ["0"; "1"]%string) OutOfBounds /\
  (exists n, device_encode Release plain config_default (arrayed 3 ["0"; "x"]%string) = Ok n) /\
  device_encode Debug plain config_default (arrayed 2 ["0"; "4294967295"]%string) = Panic Overflow /\
  unwritable Debug config_default (arrayed 2 ["0"; "4294967295"]%string) Overflow /\
  device_encode Debug plain (downwards false) (at_middle 7) = Panic Overflow /\
  unwritable Debug (downwards false) (at_middle 7) Overflow /\
  (exists n, device_encode Debug plain (downwards true) (at_middle 7) = Ok n).
Proof.
  assert (N : forall v s, s = to_string v -> v < 2 ^ 32 -> index_number s).
  { intros v s -> B. exists v. split; [apply ArrayProofs.to_string_numeral|exact B]. }
  split; [eexists; vm_compute; reflexivity|]. split; [vm_compute; reflexivity|]. split.
  { eapply uw_bits with (r := Single (a_register "R" 0 (Some [sized (BitRange 0 0 BRT_BitRange)]) None)) (f := sized (BitRange 0 0 BRT_BitRange)); [reflexivity| |reflexivity|now left|left; split; [reflexivity|discriminate]|now left].
    eapply ro_in; [now left|reflexivity|now left|constructor]. }
  split; [vm_compute; reflexivity|]. split.
  { eapply uw_few; [apply ad_peripheral; now left|reflexivity|]. split; [reflexivity|].
    constructor; [now apply (N 0)|]. constructor; [now apply (N 1)|constructor]. }
  split; [eexists; vm_compute; reflexivity|]. split; [vm_compute; reflexivity|]. split.
  { eapply uw_ends; [reflexivity|apply ad_peripheral; now left|reflexivity|]. split; [cbn; lia|]. split; [|split; [now left|now right; left]].
    constructor; [now apply (N 0)|]. constructor; [now apply (N 4294967295)|constructor]. }
  split; [vm_compute; reflexivity|]. split.
  { eapply uw_peripherals; [reflexivity|left; split; reflexivity|]. split; [cbn; lia|]. eexists. split; [now left|reflexivity]. }
  eexists; vm_compute; reflexivity.
Qed.
