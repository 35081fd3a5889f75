From Verif Require Import Base BaseFacts Num SpecNum NumProofs ArrayProofs SpecShape.

Lemma fmt_go_lead_any u base fuel n acc : 2 <= base <= 16 -> 0 < n -> n < 2 ^ N.of_nat fuel ->
  exists c t, fmt_go u base fuel n acc = String c t /\ c <> "0"%char.
Proof.
  intros B. revert n acc; induction fuel as [|fuel IH]; intros n acc Hn Hb.
  - change (2 ^ N.of_nat 0) with 1 in Hb. lia.
  - cbn [fmt_go]. rewrite Nat2N.inj_succ, N.pow_succ_r' in Hb.
    assert (D : n = base * (n / base) + n mod base) by (apply N.div_mod; lia).
    assert (M : n mod base < base) by (apply N.mod_lt; lia).
    destruct (N.eqb_spec (n / base) 0) as [E|E].
    + eexists _, _. split; [reflexivity|]. intros H.
      assert (V := digit_char_val u base (n mod base) ltac:(lia) M).
      rewrite H in V. apply digit_val_spec in V as [V _]; [|lia].
      assert (Z : n mod base = 0).
      { unfold digit_table in V. cbn [In] in V. repeat destruct V as [V|V]; try discriminate; [injection V as V; congruence|contradiction]. }
      rewrite E, Z, N.mul_0_r in D. lia.
    + apply IH; [apply N.neq_0_lt_0, E|]. apply N.le_lt_trans with (n / 2); [apply N.div_le_compat_l; lia|apply N.div_lt_upper_bound; lia].
Qed.
Definition casedb (u : bool) (c : ascii) : bool :=
  existsb (Ascii.eqb c) (list_ascii_of_string (if u then "0123456789ABCDEF" else "0123456789abcdef")).
Lemma casedb_cased u c : casedb u c = true -> cased u c.
Proof. unfold casedb. rewrite existsb_exists. intros (x & I & E). apply Ascii.eqb_eq in E as ->. exact I. Qed.
Lemma digit_char_cased u d : d < 16 -> casedb u (digit_char u d) = true.
Proof.
  intros H. assert (A : forallb (fun d => casedb u (digit_char u (N.of_nat d))) (seq 0 16) = true) by (destruct u; vm_compute; reflexivity).
  rewrite forallb_forall in A. rewrite <- (N2Nat.id d). apply A, in_seq. lia.
Qed.
Lemma sforall_forall f s : sforall f s = true -> Forall (fun c => f c = true) (list_ascii_of_string s).
Proof.
  induction s as [|c s IH]; cbn; [constructor|]. rewrite andb_true_iff. intros [A B]. constructor; auto.
Qed.
Lemma zeros_length k : String.length (zeros k) = k.
Proof. induction k; cbn; congruence. Qed.
Lemma zeros_cased u k : sforall (casedb u) (zeros k) = true.
Proof. induction k as [|k IH]; cbn [zeros sforall]; [reflexivity|]. rewrite IH. destruct u; reflexivity. Qed.
Lemma sforall_app f a b : sforall f (a ++ b)%string = sforall f a && sforall f b.
Proof. induction a as [|c a IH]; cbn; [reflexivity|]. rewrite IH. now rewrite andb_assoc. Qed.
Lemma length_append a b : String.length (a ++ b)%string = (String.length a + String.length b)%nat.
Proof. induction a; cbn; congruence. Qed.

Lemma laid_out_pad u base w n : 2 <= base <= 16 -> laid_out u base w (pad0 w (fmt_radix u base n)) n.
Proof.
  intros B. pose proof (horner_fmt u base n B) as H. rewrite <- (horner_pad base w) in H by lia.
  apply horner_positional in H; [|lia]. destruct H as (ds & F & E).
  pose proof (fmt_nonempty u base n) as NE.
  assert (C : Forall (cased u) (list_ascii_of_string (pad0 w (fmt_radix u base n)))).
  { eapply Forall_impl; [apply casedb_cased|]. apply sforall_forall. unfold pad0. rewrite sforall_app, zeros_cased.
    apply fmt_go_chars; [lia| |reflexivity]. intros d Hd. apply digit_char_cased. lia. }
  split; [|split].
  - exists ds. split; [apply pad0_nonempty, NE|]. split; [|lia]. clear E.
    induction F as [|c d cs ds' D F IH]; [constructor|]. inversion C; subst. constructor; auto.
  - unfold pad0. rewrite length_append, zeros_length. lia.
  - unfold pad0. rewrite length_append, zeros_length. intros L t' Ht.
    replace (w - String.length (fmt_radix u base n))%nat with 0%nat in Ht by lia. cbn in Ht.
    destruct (N.eq_0_gt_0_cases n) as [->|Hn].
    { change (fmt_radix u base 0) with (String (digit_char u (0 mod base)) "") in L. cbn [String.length] in L. clear - L. lia. }
    destruct (fmt_go_lead_any u base (N.size_nat n) n "" B Hn (size_nat_bound n)) as (c & t & E' & Hc).
    unfold fmt_radix in Ht. rewrite E' in Ht. injection Ht as Ht _. contradiction.
Qed.
Lemma pad0_one u base n : pad0 1 (fmt_radix u base n) = fmt_radix u base n.
Proof.
  pose proof (fmt_nonempty u base n) as NE. unfold pad0. destruct (fmt_radix u base n); [contradiction|]. reflexivity.
Qed.
Lemma laid_out_plain u base n : 2 <= base <= 16 -> laid_out u base 1 (fmt_radix u base n) n.
Proof. intros B. rewrite <- pad0_one. apply laid_out_pad, B. Qed.
Lemma format_shape f n : number_shape f n (format_number n f).
Proof.
  assert (M : u32_max = 2 ^ 32 - 1) by reflexivity.
  destruct f; cbn [number_shape format_number]; unfold hex.
  - exists (fmt_radix true 16 n). split; [reflexivity|]. apply laid_out_plain; lia.
  - eexists. split; [reflexivity|]. apply laid_out_pad; lia.
  - destruct (N.ltb_spec u32_max n); eexists; (split; [reflexivity|]); split; intros; try (exfalso; lia); apply laid_out_pad; lia.
  - exists (fmt_radix false 16 n). split; [reflexivity|]. apply laid_out_plain; lia.
  - eexists. split; [reflexivity|]. apply laid_out_pad; lia.
  - destruct (N.ltb_spec u32_max n); eexists; (split; [reflexivity|]); split; intros; try (exfalso; lia); apply laid_out_pad; lia.
  - apply laid_out_plain; lia.
  - eexists. split; [reflexivity|]. apply laid_out_plain; lia.
Qed.

Lemma parse_bool_spec s b : parse_bool s = Ok b <-> boolean_text s b.
Proof.
  unfold parse_bool. split.
  - destruct (seqb s "0") eqn:E; [apply seqb_eq in E as ->; intros [= <-]; constructor|].
    destruct (seqb s "1") eqn:E1; [apply seqb_eq in E1 as ->; intros [= <-]; constructor|].
    destruct (seqb s "true") eqn:E2; [apply seqb_eq in E2 as ->; intros [= <-]; constructor|].
    destruct (seqb s "false") eqn:E3; [apply seqb_eq in E3 as ->; intros [= <-]; constructor|]. discriminate.
  - intros []; reflexivity.
Qed.
Lemma parse_bool_error s : (forall b, ~ boolean_text s b) -> parse_bool s = Err (EInvalidBool s).
Proof.
  intros H. destruct (parse_bool s) as [b|e|p] eqn:E.
  - destruct (H b). apply parse_bool_spec, E.
  - unfold parse_bool in E. repeat destruct (seqb _ _); try discriminate. congruence.
  - unfold parse_bool in E. repeat destruct (seqb _ _); discriminate.
Qed.
