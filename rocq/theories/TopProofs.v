From Verif Require Import Base BaseFacts Types TreeFacts Derive Validate Arrays Config Sort Xml Encode Parse Expand Top
  SpecText SpecXml SpecValidate SpecArray SpecExpand ExpandProofs SpecParse SpecCause CauseProofs PropParse.

Lemma strip_mark t : strip_prefix utf8_mark (utf8_mark ++ t)%string = Some t.
Proof. reflexivity. Qed.
Lemma strip_prefix_eq p s t : strip_prefix p s = Some t -> s = (p ++ t)%string.
Proof.
  revert s; induction p as [|a p IH]; intros s; cbn; [congruence|].
  destruct s as [|b s]; [discriminate|]. destruct (Ascii.eqb_spec a b) as [->|]; [|discriminate].
  intros H. now rewrite (IH s H).
Qed.
Lemma trim_bom_mark t : trim_utf8_bom (utf8_mark ++ t)%string = t.
Proof.
  unfold trim_utf8_bom. rewrite strip_mark. destruct (N.ltb_spec 2 (N.of_nat (String.length (utf8_mark ++ t)%string))) as [|H]; [reflexivity|].
  cbn [utf8_mark append String.length] in H. lia.
Qed.
Lemma trim_bom_plain s : (forall t, s <> (utf8_mark ++ t)%string) -> trim_utf8_bom s = s.
Proof.
  intros H. unfold trim_utf8_bom. destruct (_ <? _); [|reflexivity].
  destruct (strip_prefix utf8_mark s) as [t|] eqn:E; [|reflexivity]. apply strip_prefix_eq in E. destruct (H t E).
Qed.

(** Filling in properties keeps the arrays. *)
Lemma fill_rc_array rc : forall p n e, array_in_rc (expand_properties_rc p rc) n e -> array_in_rc rc n e.
Proof.
  induction rc as [r|c IH] using rc_tree_ind; intros p n e; cbn [expand_properties_rc].
  - destruct (is_some _); [auto|]. destruct r as [i|i d]; cbn [ma_map]; intros A; inversion A; subst;
      try (match goal with B : array_in_register _ _ _ |- _ => destruct B as [fs f e' H1 H2] end;
           apply ac_in_register; eapply ar_field; [exact H1|exact H2]).
    exact (ac_register i e).
  - destruct (is_some _); [auto|]. cbv zeta. rewrite Forall_forall in IH.
    assert (K : forall rc', In rc' (map (expand_properties_rc (rp_derive (c_default_properties (info c)) p)) (c_children (info c))) ->
      array_in_rc rc' n e -> array_in_rc (RCCluster c) n e).
    { intros rc' I B. apply in_map_iff in I. destruct I as (x & <- & I). eapply ac_child; [exact I|]. eapply IH; eassumption. }
    destruct c as [i|i d]; cbn [ma_map]; intros A; inversion A; subst;
      try (match goal with I : In _ _, B : array_in_rc _ _ _ |- _ => exact (K _ I B) end). exact (ac_cluster i e).
Qed.
Lemma fill_array d n e : array_in_device (expand_properties d) n e -> array_in_device d n e.
Proof.
  unfold expand_properties. intros A. inversion A as [p e' I|p n' e' I B]; subst; cbn [d_set_peripherals d_peripherals] in I;
    apply in_map_iff in I; destruct I as (q & E & I); unfold expand_properties_peripheral in E;
    destruct (is_some _) in E; try (subst q; now econstructor; eauto).
  - destruct q as [i|i e']; [discriminate|]. cbn in E. injection E as <- <-. apply (ad_peripheral d _ _ I).
  - eapply ad_child; [exact I|]. subst p. destruct B as [rcs rc n e R J C].
    assert (R' : option_map (map (expand_properties_rc (rp_derive (p_default_properties (info q)) (d_default_properties d)))) (p_registers (info q)) = Some rcs)
      by (destruct q; exact R).
    destruct (p_registers (info q)) as [l|] eqn:El; [|discriminate]. injection R' as <-.
    apply in_map_iff in J. destruct J as (x & <- & J). eapply ap_child; [exact El|exact J|]. eapply fill_rc_array, C.
Qed.

Section Entry.
  Variables (m : mode) (fuel : nat) (document : string -> res xml) (cfg : pconfig) (s : string).
  Lemma entry_cases d : parse_with_config m fuel document cfg s = Ok d ->
    exists root n d0, document (trim_utf8_bom s) = Ok root /\ get_child "device" root = Some n /\
      device_parse m cfg n = Ok d0 /\
      (if pc_expand cfg then expand m fuel (if pc_expand_properties cfg then expand_properties d0 else d0)
       else Ok (if pc_expand_properties cfg then expand_properties d0 else d0)) = Ok d.
  Proof.
    unfold parse_with_config. destruct (document _) as [root| |]; cbn [bind]; try discriminate.
    destruct (get_child "device" root) as [n|] eqn:En; cbn [ok_or bind]; try discriminate.
    destruct (device_parse m cfg n) as [d0| |] eqn:Ed; cbn [bind]; try discriminate.
    cbv zeta. intros H. exists root, n, d0. auto.
  Qed.
  Lemma entry_panics p : (forall x q, document x <> Panic q) -> parse_with_config m fuel document cfg s = Panic p ->
    p = Unwrap \/ p = OutOfFuel \/ (p = Overflow /\ m = Debug).
  Proof.
    intros D. unfold parse_with_config. destruct (document (trim_utf8_bom s)) as [root| |] eqn:Er; cbn [bind];
      [|discriminate|now apply D in Er].
    destruct (get_child "device" root) as [n|]; cbn [ok_or bind]; try discriminate.
    destruct (device_parse m cfg n) as [d0| |q] eqn:Ed; cbn [bind]; try discriminate.
    - cbv zeta. destruct (pc_expand cfg); [|discriminate]. intros H.
      assert (A : forall n e, array_in_device (if pc_expand_properties cfg then expand_properties d0 else d0) n e -> enough e).
      { intros nm e A l El. assert (A' : array_in_device d0 nm e) by (destruct (pc_expand_properties cfg); [apply fill_array, A|exact A]).
        destruct (C11_arrays _ _ _ _ _ _ Ed A') as [_ I]. rewrite (I l El). lia. }
      destruct (expand_panics _ _ _ _ H) as [->|K]; [now apply expand_bounds in H|]. tauto.
    - intros [= <-]. destruct (C48_panics _ _ _ _ Ed) as [[-> _]|[-> [-> _]]]; auto.
  Qed.
End Entry.
Lemma encoded_device m conv cfg d n : device_encode m conv cfg d = Ok n -> get_child "device" (Elem "" [] [n]) = Some n.
Proof.
  unfold device_encode. destruct (sort_peripherals _ _ _); cbn [bind]; try discriminate.
  destruct (mapM _ _); cbn [bind]; try discriminate. intros [= <-]. reflexivity.
Qed.
