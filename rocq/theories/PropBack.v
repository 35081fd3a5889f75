(** C41, C50: which descriptions come back from XML, and from their serde form, as they were. *)
From Verif Require Import Base BaseFacts Types Config Xml Encode Parse SpecNum SpecArray SpecParse SpecSort SpecValidate SpecRound SpecSerde SpecWriting
  RoundProofs EncodeProofs FitProofs CleanProofs ListedProofs WritingProofs SurviveProofs PropExpand PropParse PropRound PropSerde PropWriting Serde.

Lemma fits_arrays l d s a : device_fits l d -> array_in_device d s a -> dim_fits l a.
Proof.
  assert (R : forall r n e, register_fits l r -> array_in_register r n e -> dim_fits l e).
  { intros r n e (_ & _ & _ & _ & _ & _ & _ & _ & H & _) [fs f e' E I]. rewrite E in H. destruct H as [_ H]. rewrite Forall_forall in H. apply (H _ I). }
  assert (C : forall rc n e, rc_fits l rc -> array_in_rc rc n e -> dim_fits l e).
  { intros rc n e H A. induction A as [r e|r n e A|c e|c rc n e I A IH]; inversion H as [r' H'|c' H' K]; subst.
    - apply H'.
    - apply (R (info r) n e); [|exact A]. now destruct r; apply H'.
    - apply H'.
    - rewrite Forall_forall in K. apply IH, K, I. }
  intros (_ & _ & _ & _ & _ & _ & _ & _ & _ & _ & _ & _ & _ & H & _) [p e I|p n e I [rcs rc n' e' E I' A]]; rewrite Forall_forall in H; specialize (H _ I).
  - apply H.
  - assert (P : peripheral_fits l (info p)) by (destruct p; apply H).
    assert (Q : opt_all (Forall (rc_fits l)) (p_registers (info p))) by apply P.
    rewrite E in Q. cbn in Q. rewrite Forall_forall in Q. apply (C rc n' e'); auto.
Qed.
Lemma fits_fields l d r fs f : device_fits l d -> register_of d r -> r_fields (info r) = Some fs -> In f fs -> bits_fit (f_bit_range (info f)).
Proof.
  intros D [p rcs rc Ip Ep Ir U] Ef If.
  assert (H : Forall (any_fits l p_name (peripheral_fits l)) (d_peripherals d)) by apply D. rewrite Forall_forall in H. specialize (H _ Ip).
  assert (P : peripheral_fits l (info p)) by (destruct p; apply H).
  assert (Q : opt_all (Forall (rc_fits l)) (p_registers (info p))) by apply P. rewrite Ep in Q. cbn in Q. rewrite Forall_forall in Q. specialize (Q _ Ir).
  clear - Q U Ef If. induction U as [r|c rc r I U IH]; inversion Q as [r' H'|c' H' K]; subst.
  - assert (X : register_fits l (info r)) by (destruct r; apply H'). destruct X as (_ & _ & _ & _ & _ & _ & _ & _ & X & _). rewrite Ef in X. destruct X as [_ X].
    rewrite Forall_forall in X. specialize (X _ If). destruct f; apply X.
  - rewrite Forall_forall in K. apply IH; auto.
Qed.
Lemma held_fields J B d r fs f : device_holds J B d -> register_of d r -> r_fields (info r) = Some fs -> In f fs -> B (f_bit_range (info f)).
Proof.
  intros (_ & _ & _ & _ & H) [p rcs rc Ip Ep Ir U] Ef If. rewrite Forall_forall in H. specialize (H _ Ip).
  assert (P : peripheral_holds J B (info p)) by (destruct p; apply H).
  assert (Q : opt_all (Forall (rc_holds J B)) (p_registers (info p))) by apply P. rewrite Ep in Q. cbn in Q. rewrite Forall_forall in Q. specialize (Q _ Ir).
  clear - Q U Ef If. induction U as [r|c rc r I U IH]; inversion Q as [r' H'|c' H' K]; subst.
  - assert (X : register_holds J B (info r)) by (destruct r; apply H'). destruct X as (_ & _ & _ & X). rewrite Ef in X. cbn in X.
    rewrite Forall_forall in X. specialize (X _ If). destruct f; apply X.
  - rewrite Forall_forall in K. apply IH; auto.
Qed.
Lemma field_register d f : in_device d (EField f) -> exists r fs x, register_of d r /\ r_fields (info r) = Some fs /\ In x fs /\ info x = f.
Proof.
  assert (C : forall rc, in_rc rc (EField f) -> exists r fs x, register_under rc r /\ r_fields (info r) = Some fs /\ In x fs /\ info x = f).
  { intros rc H. remember (EField f) as e eqn:E. induction H as [r e H|c|c|c rc e I H IH]; try discriminate E; subst.
    - inversion H as [| |fs x y Ef Ix Iy]; subst. exists r, fs, x. repeat split; auto; [constructor|]. inversion Iy as [|es y In' Iv]; subst; [reflexivity|]. inversion Iv.
    - destruct (IH eq_refl) as (r & fs & x & U & X). exists r, fs, x. split; [|exact X]. now apply ru_child with rc. }
  intros H. inversion H as [| |p e Ip H' E]; subst. inversion H' as [| |rcs rc e Er Ir H'']; subst.
  destruct (C rc H'') as (r & fs & x & U & X). exists r, fs, x. split; [|exact X]. now apply ro_in with p rcs rc.
Qed.

(** Written and read back by a checked build, a description is unchanged if and only if everything in it can
    be written as XML: texts without surrounding white space, numbers in range, bit ranges that end before the
    last bit, field lists that are not empty, index lists that can be told apart, and so on; what counts as
    acceptable at the level of the reader is part of [device_fits]. *)
Theorem C41_exact : forall conv cfg pcfg d, no_cases cfg -> in_place cfg -> pc_ignore_enums pcfg = false ->
  ((exists n, device_encode Debug conv cfg d = Ok n /\ device_parse Debug pcfg n = Ok d) <->
   device_fits (pc_level pcfg) d /\ forall s a is, array_in_device d s a -> de_index a = Some is -> ~ both_ends a is).
Proof.
  intros conv cfg pcfg d K P I. split.
  - intros (n & E & R).
    assert (B : forall s a, array_in_device d s a -> de_dim a < 2 ^ 32).
    { intros s a. apply held_small with indexes_in (fun _ => True). eapply device_num; eauto. }
    pose proof (proj1 (proj1 (C82_exact Debug conv cfg d B)) (ex_intro _ n E)) as U.
    split; [|intros s a is A D X; exact (U Overflow (uw_ends _ _ _ _ _ _ eq_refl A D X))].
    eapply device_read; [|exact R|].
    + eapply nb_device; eauto. eapply b_device_read; eauto.
    + intros f F T. destruct (field_register _ _ F) as (r & fs & x & Ro & Ef & Ix & <-).
      assert (H : device_holds indexes_in SpecSerde.bits_read d) by (eapply device_num; [|exact R]; exact parsed_checked).
      pose proof (held_fields _ _ _ _ _ _ H Ro Ef Ix) as (_ & _ & X). specialize (X T).
      assert (N : ~ no_last_bit (f_bit_range (info x))).
      { intros N. apply (U Overflow). apply uw_bits with r fs x; auto. left. split; [apply P|exact T]. }
      unfold no_last_bit in N. lia.
  - intros (F & Q). pose proof (w_device_id Debug conv cfg _ K P d F) as W.
    assert (B : forall s a, array_in_device d s a -> de_dim a < 2 ^ 32) by (intros s a A; apply (fits_arrays _ _ _ _ F A)).
    assert (T : exists n, device_encode Debug conv cfg d = Ok n).
    { apply (C82_exact Debug conv cfg d B). destruct P as (P1 & P2 & P3 & P4). intros p U.
      destruct U as [g M T U|y rcs g M Y E T U|r fs g M R E T U|r fs f M R E Y L N|s a is A D (L & _)|s a is M A D X].
      - rewrite P1 in T. destruct T as [(X & _)|(X & _)]; discriminate X.
      - rewrite P2 in T. destruct T as [(X & _)|(X & _)]; discriminate X.
      - rewrite P3 in T. destruct T as [(X & _)|(X & _)]; discriminate X.
      - destruct L as [(_ & X)|(t & X & _)]; [|congruence]. destruct (fits_fields _ _ _ _ _ F R E Y) as (_ & _ & Z). specialize (Z X). unfold no_last_bit in N. lia.
      - destruct (fits_arrays _ _ _ _ F A) as (_ & _ & X & _). rewrite D in X. destruct X as (_ & X & _). lia.
      - exact (Q s a is A D X). }
    destruct T as [n E]. exists n. split; [exact E|]. eapply device_round; eauto.
Qed.
Print Assumptions C41_exact.

(** What the condition leaves out does not come back: a text with a space around it, an empty list of fields, a
    field of all 32 bits, which an unchecked build would still return. *)
Definition back (m : mode) (d : device) : Prop :=
  exists n, device_encode m (fun _ s => s) config_default d = Ok n /\ device_parse m (PConfig Disabled false false false) n = Ok d.
Definition three_indexes : device := arrayed 3 ["0"; "4294967295"; "A"]%string.
Definition whole_word : device := one_register [sized (BitRange 0 0 BRT_BitRange)].
Example C41_exact_example :
  back Debug described /\ back Debug three_indexes /\
  ~ (forall s e, array_in_device three_indexes s e -> calm Debug e) /\
  ~ back Debug (one_register []) /\ ~ device_fits Disabled (one_register []) /\
  ~ back Debug whole_word /\ back Release whole_word.
Proof.
  assert (O : ~ device_fits Disabled (one_register [])).
  { intros F. assert (H : Forall (any_fits Disabled p_name (peripheral_fits Disabled)) (d_peripherals (one_register []))) by apply F.
    inversion H as [|x y X Y]; subst. assert (Q : opt_all (Forall (rc_fits Disabled)) (p_registers (a_peripheral "P" 0 (Some [RCRegister (Single (a_register "R" 0 (Some []) None))]) None))) by apply X.
    cbn in Q. inversion Q as [|u v U V]; subst. inversion U as [r W|]; subst. destruct W as (_ & _ & _ & _ & _ & _ & _ & _ & (W & _) & _). now apply W. }
  assert (B : forall m d, match device_encode m (fun _ s => s) config_default d with Ok n => device_parse m (PConfig Disabled false false false) n = Ok d | _ => False end -> back m d).
  { intros m d. unfold back. destruct (device_encode m (fun _ s => s) config_default d) as [n| |]; [|easy..]. eauto. }
  conjs; try exact O.
  - apply B. vm_compute. reflexivity.
  - apply B. vm_compute. reflexivity.
  - intros C. refine (C "P%s"%string _ (ad_peripheral three_indexes (a_peripheral "P%s" 0 None None) (DimElement 3 4 (Some ["0"; "4294967295"; "A"]%string) None None) (or_introl eq_refl)) eq_refl _ eq_refl _). split; cbn; auto.
  - intros X. apply O. refine (proj1 (proj1 (C41_exact (fun _ s => s) config_default (PConfig Disabled false false false) (one_register []) _ _ eq_refl) X));
      [unfold no_cases|unfold in_place]; repeat split.
  - intros (n & E & _). vm_compute in E. discriminate E.
  - apply B. vm_compute. reflexivity.
Qed.

(** The same for the serde form: numbers in the ranges of their types, bit ranges that end before the last bit,
    arrays with index lists whose texts can be told apart, and the attributes of the root that every description
    read from the serde form gets. Texts are arbitrary. *)
Theorem C50_exact : forall d,
  (exists v, device_put Debug d = Ok v /\ device_get Debug v = Ok d) <-> device_in Debug d /\ device_listed d /\ usual_header d.
Proof.
  intros d. split; [|intros (H & L & U); now apply C50_identity].
  intros (v & E & G).
  assert (L : forall n a, array_in_device d n a -> well_listed a) by (intros n a; eapply device_well_listed; eauto).
  split; [|split; [|apply (C64_ranges _ _ _ G)]].
  - apply device_lists with (fun _ => True).
    { intros n a l A D. destruct (L n a A) as (l' & D' & X). congruence. }
    eapply device_more; [|exact (C64_checked _ _ G)]. cbv beta. intros f F (X & Y & Z). unfold bits_in. conjs; auto. intros T. specialize (Z T). conjs; try tauto.
    intros _. destruct (N.lt_ge_cases (br_offset (f_bit_range f) + br_width (f_bit_range f)) (2 ^ 32)) as [Q|Q]; [exact Q|].
    exfalso. destruct (C63_write Debug d) as [_ W]. assert (P : device_put Debug d = Panic Overflow).
    { apply W. conjs; auto. exists f. split; [exact F|]. split; auto. }
    rewrite E in P. discriminate.
  - intros n a A D. destruct (L n a A) as (l & D' & _). congruence.
Qed.
Print Assumptions C50_exact.
Example C50_exact_example :
  (exists v, device_put Debug headed = Ok v /\ device_get Debug v = Ok headed) /\
  ~ (exists v, device_put Debug unlisted = Ok v /\ device_get Debug v = Ok unlisted) /\
  device_in Debug unlisted /\ usual_header unlisted.
Proof.
  conjs.
  - apply C50_exact. conjs; [exact headed_in|exact described_listed|repeat split].
  - intros H. apply C50_exact in H as (_ & L & _). refine (L "T%s"%string (times 2 4096) _ eq_refl).
    exact (ad_peripheral unlisted (a_peripheral "T%s" 0 None None) (times 2 4096) (or_introl eq_refl)).
  - unfold unlisted; in_range.
  - repeat split.
Qed.

(** Different descriptions have different documents, however each is written, and different serde forms. *)
Theorem C41_distinct : forall m1 m2 conv1 conv2 cfg1 cfg2 l d1 d2 n, no_cases cfg1 -> in_place cfg1 -> no_cases cfg2 -> in_place cfg2 ->
  device_fits l d1 -> device_fits l d2 ->
  device_encode m1 conv1 cfg1 d1 = Ok n -> device_encode m2 conv2 cfg2 d2 = Ok n -> d1 = d2.
Proof.
  intros m1 m2 conv1 conv2 cfg1 cfg2 l d1 d2 n K1 P1 K2 P2 F1 F2 E1 E2.
  assert (R : forall m conv cfg d, no_cases cfg -> in_place cfg -> device_fits l d -> device_encode m conv cfg d = Ok n ->
            device_parse Debug (PConfig l false false false) n = Ok d).
  { intros m conv cfg d K P F E. exact (device_round m Debug conv cfg (PConfig l false false false) eq_refl d n d E (w_device_id m conv cfg l K P d F) F). }
  pose proof (R m1 conv1 cfg1 d1 K1 P1 F1 E1) as A. pose proof (R m2 conv2 cfg2 d2 K2 P2 F2 E2) as B. rewrite A in B. now injection B.
Qed.
Print Assumptions C41_distinct.
Theorem C50_distinct : forall m1 m2 d1 d2 v, device_in m1 d1 -> device_listed d1 -> usual_header d1 ->
  device_in m2 d2 -> device_listed d2 -> usual_header d2 ->
  device_put m1 d1 = Ok v -> device_put m2 d2 = Ok v -> d1 = d2.
Proof.
  intros m1 m2 d1 d2 v H1 L1 U1 H2 L2 U2 E1 E2.
  destruct (C50_identity m1 Debug d1 H1 L1 U1) as (v1 & P1 & G1). destruct (C50_identity m2 Debug d2 H2 L2 U2) as (v2 & P2 & G2).
  rewrite E1 in P1. rewrite E2 in P2. injection P1 as <-. injection P2 as <-. rewrite G1 in G2. now injection G2.
Qed.
Print Assumptions C50_distinct.
(** Both apply: a description and the same with another text at the end have different documents and different serde forms. *)
Definition renamed (d : device) (s : string) : device :=
  {| d_vendor := d_vendor d; d_vendor_id := d_vendor_id d; d_name := s; d_series := d_series d; d_version := d_version d;
     d_description := d_description d; d_license_text := d_license_text d; d_cpu := d_cpu d;
     d_header_system_filename := d_header_system_filename d; d_header_definitions_prefix := d_header_definitions_prefix d;
     d_address_unit_bits := d_address_unit_bits d; d_width := d_width d; d_default_properties := d_default_properties d;
     d_peripherals := d_peripherals d; d_xmlns_xs := d_xmlns_xs d;
     d_no_namespace_schema_location := d_no_namespace_schema_location d; d_schema_version := d_schema_version d |}.
Example distinct_example :
  device_fits Strict described /\ (exists n, device_encode Debug (fun _ s => s) config_default described = Ok n /\
    device_encode Release (fun _ s => s) config_default described = Ok n /\
    device_encode Debug (fun _ s => s) config_default (renamed described "D") <> Ok n) /\
  device_in Debug headed /\ device_listed headed /\ usual_header headed /\
  device_put Debug headed <> device_put Debug (renamed headed "D").
Proof.
  conjs; [exact described_fits| |exact headed_in|exact described_listed|repeat split|vm_compute; discriminate].
  destruct (device_encode Debug (fun _ s => s) config_default described) as [n| |] eqn:E; [|vm_compute in E; discriminate..].
  vm_compute in E. injection E as <-. eexists. split; [reflexivity|]. split; [vm_compute; reflexivity|vm_compute; discriminate].
Qed.
