(** The name patterns accept exactly the name grammars. *)
From Verif Require Import BaseFacts Names Arrays SpecArray ArrayProofs SpecValidate.

(** ** Language of a pattern *)
Inductive star (P : string -> Prop) : string -> Prop :=
  | star_nil : star P EmptyString
  | star_cons a b : P a -> star P b -> star P (a ++ b)%string.
Fixpoint lang (r : re) : string -> Prop :=
  match r with
  | REmpty => fun _ => False
  | REps => fun s => s = EmptyString
  | RCls f => fun s => exists c, s = String c "" /\ f c = true
  | RSeq a b => fun s => exists x y, s = (x ++ y)%string /\ lang a x /\ lang b y
  | RAlt a b => fun s => lang a s \/ lang b s
  | RStar a => star (lang a)
  end.

Lemma nullable_spec r : nullable r = true <-> lang r "".
Proof.
  induction r as [| |f|a IHa b IHb|a IHa b IHb|a IHa]; cbn.
  - split; [discriminate|tauto].
  - tauto.
  - split; [discriminate|]. intros (c & H & _). discriminate.
  - rewrite andb_true_iff, IHa, IHb. split.
    + intros [H1 H2]. now exists ""%string, ""%string.
    + intros (x & y & E & H1 & H2). destruct x; [|discriminate]. cbn in E. now subst.
  - now rewrite orb_true_iff, IHa, IHb.
  - split; [constructor|reflexivity].
Qed.
Lemma star_nonempty P s : star P s -> s = EmptyString \/ exists c x y, s = (String c x ++ y)%string /\ P (String c x) /\ star P y.
Proof.
  induction 1 as [|a b Ha Hb IH]; [now left|]. destruct a as [|c x]; [exact IH|]. right. exists c, x, b. auto.
Qed.
Lemma deriv_spec c r s : lang (deriv c r) s <-> lang r (String c s).
Proof.
  revert s; induction r as [| |f|a IHa b IHb|a IHa b IHb|a IHa]; intros s; cbn [deriv lang].
  - tauto.
  - split; [intros []|discriminate].
  - destruct (f c) eqn:E; cbn [lang].
    + split; [intros ->; eauto|]. intros (c' & H & _). now injection H.
    + split; [intros []|]. intros (c' & H & Hc). injection H as <- _. congruence.
  - assert (K : lang (RSeq (deriv c a) b) s <-> exists x y, s = (x ++ y)%string /\ lang a (String c x) /\ lang b y).
    { cbn [lang]. split; intros (x & y & E & H1 & H2); exists x, y; (split; [assumption|]); (split; [now apply IHa|assumption]). }
    destruct (nullable a) eqn:N; [change (lang (RAlt (RSeq (deriv c a) b) (deriv c b)) s)
      with (lang (RSeq (deriv c a) b) s \/ lang (deriv c b) s)|]; rewrite K.
    + rewrite IHb. apply nullable_spec in N. split.
      * intros [(x & y & -> & H1 & H2)|H]; [exists (String c x), y; auto|exists ""%string, (String c s); auto].
      * intros ([|c' x] & y & E & H1 & H2); cbn in E.
        -- right. now subst.
        -- injection E as <- ->. left. eauto.
    + assert (N' : ~ lang a "") by (rewrite <- nullable_spec; congruence). split.
      * intros (x & y & -> & H1 & H2). exists (String c x), y. auto.
      * intros ([|c' x] & y & E & H1 & H2); [contradiction|]. cbn in E. injection E as <- ->. eauto.
  - now rewrite IHa, IHb.
  - split.
    + intros (x & y & -> & H1 & H2). change (String c (x ++ y)) with (String c x ++ y)%string.
      constructor; [now apply IHa|assumption].
    + intros H. apply star_nonempty in H as [H|(c' & x & y & E & H1 & H2)]; [discriminate|].
      cbn in E. injection E as <- ->. exists x, y. split; [reflexivity|]. split; [now apply IHa|assumption].
Qed.
Lemma re_match_spec r s : re_match r s = true <-> lang r s.
Proof.
  revert r; induction s as [|c s IH]; intros r; cbn [re_match]; [apply nullable_spec|].
  rewrite IH. apply deriv_spec.
Qed.

(** ** The two patterns *)
Lemma lang_lit s t : lang (RLit s) t <-> t = s.
Proof.
  revert t; induction s as [|c s IH]; intros t; cbn [RLit lang]; [tauto|]. split.
  - intros (x & y & -> & (c' & -> & E) & H). apply Ascii.eqb_eq in E as ->. apply IH in H as ->. reflexivity.
  - intros ->. exists (String c ""), s. split; [reflexivity|]. split; [|now apply IH].
    exists c. split; [reflexivity|apply Ascii.eqb_refl].
Qed.
Lemma lang_star_cls f s : lang (RStar (RCls f)) s <-> Forall (fun c => f c = true) (list_ascii_of_string s).
Proof.
  cbn [lang]. split.
  - induction 1 as [|a b (c & -> & H) _ IH]; cbn; constructor; assumption.
  - induction s as [|c s IH]; cbn; intros H; [constructor|]. inversion H; subst.
    apply (star_cons _ (String c "") s); [eauto|auto].
Qed.
Lemma cls_head_spec c : cls_head c = true <-> letter_or_underscore c.
Proof.
  unfold cls_head, between, letter_or_underscore. rewrite !byte_nat.
  assert (E : Ascii.eqb c "_" = (N.of_nat (nat_of_ascii c) =? 95)).
  { destruct (Ascii.eqb_spec c "_") as [->|H]; [reflexivity|]. symmetry. apply N.eqb_neq. intros K. apply H.
    rewrite <- (ascii_nat_embedding c). replace (nat_of_ascii c) with 95%nat by lia. reflexivity. }
  rewrite E. lia.
Qed.
Lemma cls_word_spec c : cls_word c = true <-> word_char c.
Proof.
  unfold cls_word, word_char. rewrite orb_true_iff, cls_head_spec. apply or_iff_compat_l.
  unfold between. rewrite !byte_nat. lia.
Qed.
Lemma lang_words s : lang (RStar (RCls cls_word)) s <-> plain_name s.
Proof.
  rewrite lang_star_cls. unfold plain_name, all_chars.
  split; intros H; (eapply Forall_impl; [|exact H]); intros c; apply cls_word_spec.
Qed.
Lemma lang_cls f s : lang (RCls f) s <-> exists c, s = String c "" /\ f c = true.
Proof. reflexivity. Qed.
Lemma lang_seq a b s : lang (RSeq a b) s <-> exists x y, s = (x ++ y)%string /\ lang a x /\ lang b y.
Proof. reflexivity. Qed.
Lemma lang_alt a b s : lang (RAlt a b) s <-> lang a s \/ lang b s.
Proof. reflexivity. Qed.
Lemma lang_opt a s : lang (ROpt a) s <-> lang a s \/ s = EmptyString.
Proof. reflexivity. Qed.

(** head, then words, then the rest *)
Lemma lang_head_seq r s : lang (RSeq (RCls cls_head) (RSeq (RStar (RCls cls_word)) r)) s <->
  exists x y, s = (x ++ y)%string /\ identifier x /\ lang r y.
Proof.
  rewrite lang_seq. split.
  - intros (x & y & -> & Hx & Hy). apply lang_cls in Hx as (c & -> & Hc).
    apply lang_seq in Hy as (u & v & -> & Hu & Hv). apply lang_words in Hu.
    exists (String c u), v. split; [reflexivity|]. split; [|assumption].
    exists c, u. split; [reflexivity|]. split; [now apply cls_head_spec|exact Hu].
  - intros (x & y & -> & (c & t & -> & Hc & Ht) & Hy).
    exists (String c ""), (t ++ y)%string. split; [reflexivity|]. split.
    + apply lang_cls. exists c. split; [reflexivity|now apply cls_head_spec].
    + apply lang_seq. exists t, y. split; [reflexivity|]. split; [now apply lang_words|assumption].
Qed.
Lemma lang_ident s : lang (RSeq (RCls cls_head) (RStar (RCls cls_word))) s <-> identifier s.
Proof.
  rewrite lang_seq. split.
  - intros (x & y & -> & Hx & Hy). apply lang_cls in Hx as (c & -> & Hc). apply lang_words in Hy.
    exists c, y. split; [reflexivity|]. split; [now apply cls_head_spec|exact Hy].
  - intros (c & t & -> & Hc & Ht). exists (String c ""), t. split; [reflexivity|]. split.
    + apply lang_cls. exists c. split; [reflexivity|now apply cls_head_spec].
    + now apply lang_words.
Qed.
Lemma plain_app a b : plain_name (a ++ b) <-> plain_name a /\ plain_name b.
Proof.
  unfold plain_name, all_chars. induction a as [|c a IH]; cbn; [split; [intros H; split; [constructor|exact H]|tauto]|].
  split.
  - intros H; inversion H; subst. apply IH in H3 as [H3 H4]. split; [constructor; assumption|assumption].
  - intros [H1 H2]. inversion H1; subst. constructor; [assumption|]. apply IH. auto.
Qed.
Lemma ident_app a b : identifier a -> plain_name b -> identifier (a ++ b).
Proof.
  intros (c & t & -> & Hc & Ht) Hb. exists c, (t ++ b)%string. split; [reflexivity|]. split; [assumption|].
  apply (plain_app t b). auto.
Qed.
Lemma plain_nil : plain_name "".
Proof. constructor. Qed.

Lemma check_name_ok n tag u : check_name n tag = Ok u <-> plain_name n.
Proof. unfold check_name. rewrite check_ok, re_match_spec. apply lang_words. Qed.
Lemma dimable_pattern_spec s : re_match dimable_pattern s = true <-> arrayable_name s.
Proof.
  rewrite re_match_spec. unfold dimable_pattern. rewrite !lang_alt, lang_lit, !lang_head_seq. split.
  - intros [[[->|H]|H]|H].
    + apply an_only.
    + apply lang_seq in H as (x & y & -> & Hx & Hy). apply lang_lit in Hx as ->. apply lang_ident in Hy. now apply an_prefix.
    + destruct H as (x & y & -> & Hx & Hy). apply lang_opt in Hy as [Hy| ->].
      * apply lang_lit in Hy as ->. now apply an_bracket.
      * rewrite sapp_nil. now apply an_plain.
    + destruct H as (x & y & -> & Hx & Hy). apply lang_seq in Hy as (u & v & -> & Hu & Hv). apply lang_words in Hv.
      apply lang_opt in Hu as [Hu| ->].
      * apply lang_lit in Hu as ->. now apply an_inside.
      * apply an_plain. now apply ident_app.
  - intros [s' H| |t H|t H|a b Ha Hb].
    + left; right. exists s', ""%string. rewrite sapp_nil. split; [reflexivity|]. split; [assumption|].
      apply lang_opt. now right.
    + now left; left; left.
    + left; left; right. apply lang_seq. exists "%s"%string, t. split; [reflexivity|].
      split; [now apply lang_lit|now apply lang_ident].
    + left; right. exists t, "[%s]"%string. split; [reflexivity|]. split; [assumption|]. apply lang_opt. left. now apply lang_lit.
    + right. exists a, ("%s" ++ b)%string. split; [reflexivity|]. split; [assumption|].
      apply lang_seq. exists "%s"%string, b. split; [reflexivity|]. split; [|now apply lang_words].
      apply lang_opt. left. now apply lang_lit.
Qed.
Lemma check_dimable_ok n tag u : check_dimable_name n tag = Ok u <-> arrayable_name n.
Proof. unfold check_dimable_name. rewrite check_ok. apply dimable_pattern_spec. Qed.
Lemma check_derived_ok n tag u : check_derived_name n tag = Ok u <-> derived_name n.
Proof.
  unfold check_derived_name. rewrite iterM_ok. unfold derived_name. split.
  - intros H. exists (split "." n). split; [apply split_cut|].
    eapply Forall_impl; [|exact H]. intros x Hx. now apply check_dimable_ok in Hx.
  - intros (ps & Hc & H). apply cut_split in Hc as ->.
    eapply Forall_impl; [|exact H]. intros x Hx. now apply check_dimable_ok.
Qed.
(** The refusals: which error. *)
Lemma check_name_err n tag e : check_name n tag = Err e <-> ~ plain_name n /\ e = EName n tag.
Proof.
  unfold check_name. rewrite check_err. rewrite <- lang_words, <- re_match_spec.
  change (RStar (RCls cls_word)) with name_pattern. now rewrite not_true_iff_false.
Qed.
Lemma check_dimable_err n tag e : check_dimable_name n tag = Err e <-> ~ arrayable_name n /\ e = EName n tag.
Proof. unfold check_dimable_name. rewrite check_err, <- dimable_pattern_spec. now rewrite not_true_iff_false. Qed.
