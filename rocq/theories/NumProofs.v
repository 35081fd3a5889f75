(** Proofs about number texts. *)
From Verif Require Import BaseFacts Num SpecNum.

(** ** Characters *)
Lemma ascii_all (P : ascii -> bool) : forallb P (map ascii_of_nat (seq 0 256)) = true -> forall c, P c = true.
Proof.
  intros H c. rewrite forallb_forall in H. apply H. apply in_map_iff.
  exists (nat_of_ascii c). split; [apply ascii_nat_embedding|].
  apply in_seq. pose proof (nat_ascii_bounded c). lia.
Qed.

Lemma byte_chr n : n < 256 -> byte (chr n) = n.
Proof. intros H. apply N_ascii_embedding; exact H. Qed.
Lemma byte_bound c : byte c < 256.
Proof. apply N_ascii_bounded. Qed.
Lemma chr_byte c : chr (byte c) = c.
Proof. apply ascii_N_embedding. Qed.

(** Reading in full, before the base is compared. *)
Definition dval (c : ascii) : option N := digit_val 16 c.

Lemma digit_val_dval base c : base <= 16 ->
  digit_val base c = match dval c with Some d => if d <? base then Some d else None | None => None end.
Proof.
  intros Hb. unfold dval, digit_val. pose proof (byte_bound c) as Hc. revert Hc.
  generalize (byte c) as n; intros n Hn.
  repeat match goal with |- context [if ?b then _ else _] => destruct b eqn:? end; auto; try lia.
Qed.

Lemma dval_table c d : dval c = Some d <-> In (c, d) digit_table.
Proof.
  split; intros H.
  - assert (A : forall c, match dval c with
                 | Some d => existsb (fun p => Ascii.eqb (fst p) c && (snd p =? d)) digit_table
                 | None => true end = true) by (apply ascii_all; vm_compute; reflexivity).
    specialize (A c). rewrite H in A. apply existsb_exists in A as ((c', d') & Hin & Hb).
    cbn in Hb. apply andb_true_iff in Hb as [E1 E2].
    apply Ascii.eqb_eq in E1. apply N.eqb_eq in E2. now subst.
  - cbn in H. repeat (destruct H as [H|H]; [injection H as <- <-; reflexivity|]). contradiction.
Qed.

Lemma digit_val_spec base c d : base <= 16 -> digit_val base c = Some d <-> digit base c d.
Proof.
  intros Hb. rewrite digit_val_dval by assumption. unfold digit. rewrite <- dval_table.
  destruct (dval c) as [x|]; [|intuition discriminate].
  destruct (N.ltb_spec x base); split; intros H'.
  - injection H' as ->. auto.
  - destruct H' as [H' _]. exact H'.
  - discriminate.
  - destruct H' as [E L]. injection E as ->. lia.
Qed.

Lemma digit_char_val u base d : base <= 16 -> d < base -> digit_val base (digit_char u d) = Some d.
Proof.
  intros Hb Hd. unfold digit_char, digit_val.
  destruct (N.ltb_spec d 10); rewrite byte_chr by (destruct u; lia).
  - replace ((48 <=? 48 + d) && (48 + d <=? 57)) with true by lia.
    replace (48 + d - 48) with d by lia. replace (d <? base) with true by lia. reflexivity.
  - destruct u.
    + replace ((48 <=? 55 + d) && (55 + d <=? 57)) with false by lia.
      replace ((97 <=? 55 + d) && (55 + d <=? 102)) with false by lia.
      replace ((65 <=? 55 + d) && (55 + d <=? 70)) with true by lia.
      replace (55 + d - 55) with d by lia. replace (d <? base) with true by lia. reflexivity.
    + replace ((48 <=? 87 + d) && (87 + d <=? 57)) with false by lia.
      replace ((97 <=? 87 + d) && (87 + d <=? 102)) with true by lia.
      replace (87 + d - 87) with d by lia. replace (d <? base) with true by lia. reflexivity.
Qed.

(** ** Horner evaluation without bound *)
Fixpoint horner (base acc : N) (s : string) : option N :=
  match s with
  | EmptyString => Some acc
  | String c s' => match digit_val base c with Some d => horner base (acc * base + d) s' | None => None end
  end.

Lemma horner_ge base acc s v : 1 <= base -> horner base acc s = Some v -> acc <= v.
Proof.
  intros Hb. revert acc; induction s as [|c s IH]; intros acc H; cbn in H.
  - injection H as ->. lia.
  - destruct (digit_val base c); [|discriminate]. apply IH in H. nia.
Qed.

(** The value the digit loop ends with. *)
Definition digits_loop (base bound acc : N) (s : string) : option N := sum_ok (digits_scan base bound acc s).
Lemma digits_loop_horner base bound acc s v : 1 <= base -> acc < bound ->
  digits_loop base bound acc s = Some v <-> horner base acc s = Some v /\ v < bound.
Proof.
  intros Hb. revert acc; induction s as [|c s IH]; intros acc Ha; unfold digits_loop; cbn [digits_scan horner sum_ok].
  - split; [intros H; injection H as <-; auto | intros [H _]; exact H].
  - destruct (digit_val base c) as [d|]; [|intuition discriminate].
    destruct (N.ltb_spec (acc * base) bound) as [H1|H1].
    + destruct (N.ltb_spec (acc * base + d) bound) as [H2|H2].
      * now apply IH.
      * split; [discriminate|]. intros [H Hv]. apply horner_ge in H; lia.
    + split; [discriminate|]. intros [H Hv]. apply horner_ge in H; lia.
Qed.

Lemma horner_positional base acc s v : base <= 16 ->
  horner base acc s = Some v <->
  exists ds, Forall2 (digit base) (list_ascii_of_string s) ds /\
             v = acc * base ^ N.of_nat (List.length ds) + positional base ds.
Proof.
  intros Hb. revert acc; induction s as [|c s IH]; intros acc; cbn [horner list_ascii_of_string].
  - split.
    + intros H; injection H as <-. exists []; split; [constructor|]. cbn. lia.
    + intros (ds & H & ->). inversion H. cbn. f_equal. lia.
  - destruct (digit_val base c) as [d|] eqn:Hd.
    + rewrite IH. apply digit_val_spec in Hd; [|assumption]. split.
      * intros (ds & Hf & ->). exists (d :: ds). split; [constructor; assumption|].
        cbn [List.length positional]. rewrite Nat2N.inj_succ, N.pow_succ_r'. lia.
      * intros (ds & Hf & ->). inversion Hf as [|? d' ? ds' Hd' Hf']; subst.
        apply digit_val_spec in Hd, Hd'; try assumption.
        assert (d = d') by congruence; subst.
        exists ds'. split; [assumption|].
        cbn [List.length positional]. rewrite Nat2N.inj_succ, N.pow_succ_r'. lia.
    + split; [discriminate|]. intros (ds & Hf & _). inversion Hf as [|? d' ? ds' Hd' Hf']; subst.
      apply digit_val_spec in Hd'; [congruence|assumption].
Qed.

(** ** Formatting *)
Lemma horner_fmt_go u base fuel n acc :
  2 <= base <= 16 -> n < 2 ^ N.of_nat fuel ->
  horner base 0 (fmt_go u base fuel n acc) = horner base n acc.
Proof.
  intros Hb. revert n acc; induction fuel as [|fuel IH]; intros n acc Hn; cbn [fmt_go].
  - change (2 ^ N.of_nat 0) with 1 in Hn. assert (n = 0) by lia; subst n.
    cbn [horner]. rewrite digit_char_val; [|lia|apply N.mod_lt; lia].
    rewrite N.mod_0_l by lia. f_equal.
  - assert (Hq : n / base < 2 ^ N.of_nat fuel).
    { rewrite Nat2N.inj_succ, N.pow_succ_r' in Hn.
      apply N.le_lt_trans with (n / 2).
      - apply N.div_le_compat_l; lia.
      - apply N.div_lt_upper_bound; lia. }
    assert (Hm : n mod base < base) by (apply N.mod_lt; lia).
    assert (Hdm : n = base * (n / base) + n mod base) by (apply N.div_mod; lia).
    destruct (N.eqb_spec (n / base) 0) as [E|E].
    + cbn [horner]. rewrite digit_char_val by lia. f_equal. rewrite E in Hdm. lia.
    + rewrite IH by assumption. cbn [horner]. rewrite digit_char_val by lia. f_equal. lia.
Qed.

Lemma size_nat_bound n : n < 2 ^ N.of_nat (N.size_nat n).
Proof.
  destruct n as [|p]; [reflexivity|]. cbn [N.size_nat].
  induction p as [p IH|p IH|]; cbn [Pos.size_nat]; rewrite ?Nat2N.inj_succ, ?N.pow_succ_r'; lia.
Qed.

Lemma horner_fmt u base n : 2 <= base <= 16 -> horner base 0 (fmt_radix u base n) = Some n.
Proof.
  intros Hb. unfold fmt_radix. rewrite horner_fmt_go; [reflexivity|assumption|apply size_nat_bound].
Qed.

Lemma fmt_go_chars u base fuel n acc (f : ascii -> bool) :
  2 <= base -> (forall d, d < base -> f (digit_char u d) = true) -> sforall f acc = true ->
  sforall f (fmt_go u base fuel n acc) = true.
Proof.
  intros Hb Hf. revert n acc; induction fuel as [|fuel IH]; intros n acc Ha; cbn [fmt_go].
  - cbn [sforall]. rewrite Ha, Hf; [reflexivity|apply N.mod_lt; lia].
  - assert (sforall f (String (digit_char u (n mod base)) acc) = true)
      by (cbn [sforall]; rewrite Ha, Hf; [reflexivity|apply N.mod_lt; lia]).
    destruct (n / base =? 0); [assumption|]. now apply IH.
Qed.

(** Plain digits. *)
Definition is_digit (c : ascii) : bool := (48 <=? byte c) && (byte c <=? 57).
Definition is_alnum_digit (c : ascii) : bool :=
  is_digit c || ((97 <=? byte c) && (byte c <=? 102)) || ((65 <=? byte c) && (byte c <=? 70)).

Lemma digit_char_digit u d : d < 10 -> is_digit (digit_char u d) = true.
Proof.
  intros H. unfold digit_char, is_digit. replace (d <? 10) with true by lia.
  rewrite byte_chr by lia. lia.
Qed.
Lemma digit_char_hex u d : d < 16 -> is_alnum_digit (digit_char u d) = true.
Proof.
  intros H. unfold digit_char, is_alnum_digit, is_digit.
  destruct (N.ltb_spec d 10), u; rewrite byte_chr by lia; lia.
Qed.

Lemma fmt_digits u base n : 2 <= base <= 10 -> sforall is_digit (fmt_radix u base n) = true.
Proof.
  intros Hb. apply fmt_go_chars; [lia| |reflexivity]. intros d Hd. apply digit_char_digit. lia.
Qed.
Lemma fmt_hex_digits u n : sforall is_alnum_digit (fmt_radix u 16 n) = true.
Proof. apply fmt_go_chars; [lia| |reflexivity]. apply digit_char_hex. Qed.

Lemma fmt_go_nonempty u base fuel n acc : fmt_go u base fuel n acc <> EmptyString.
Proof.
  revert n acc; induction fuel as [|fuel IH]; intros n acc; cbn [fmt_go]; [discriminate|].
  destruct (n / base =? 0); [discriminate|apply IH].
Qed.
Lemma fmt_nonempty u base n : fmt_radix u base n <> EmptyString.
Proof. apply fmt_go_nonempty. Qed.

Lemma to_string_digits n : sforall is_digit (to_string n) = true.
Proof. apply fmt_digits. lia. Qed.

(** from_str_radix on a text that does not start with a sign *)
Definition no_plus (s : string) : bool :=
  match s with String c _ => negb (Ascii.eqb c "+") | EmptyString => true end.
Lemma from_str_radix_no_plus base bound s :
  no_plus s = true -> s <> EmptyString -> from_str_radix base bound s = digits_loop base bound 0 s.
Proof.
  destruct s as [|c s]; [congruence|]. intros H _. cbn in H.
  destruct c as [[] [] [] [] [] [] [] []]; try reflexivity. discriminate H.
Qed.
Lemma from_str_radix_plus base bound s :
  s <> EmptyString -> from_str_radix base bound (String "+" s) = digits_loop base bound 0 s.
Proof. destruct s; [congruence|reflexivity]. Qed.

Lemma horner_no_plus base s v acc : base <= 16 -> horner base acc s = Some v -> no_plus s = true.
Proof.
  intros Hb. destruct s as [|c s]; cbn; [auto|]. rewrite digit_val_dval by assumption.
  destruct (Ascii.eqb_spec c "+") as [->|]; [discriminate|auto].
Qed.

Lemma from_str_radix_horner base bound s v :
  1 <= base <= 16 -> 0 < bound ->
  from_str_radix base bound s = Some v <->
  v < bound /\ exists t, t <> EmptyString /\ (s = t \/ s = String "+" t) /\ horner base 0 t = Some v.
Proof.
  intros Hb Hbd. split.
  - intros H. destruct s as [|c s]; [discriminate|].
    destruct (Ascii.eqb_spec c "+") as [->|Hc].
    + destruct s as [|c s]; [discriminate|].
      rewrite from_str_radix_plus in H by discriminate.
      apply digits_loop_horner in H as [H Hv]; [|lia..]. split; [exact Hv|].
      exists (String c s). split; [discriminate|]. auto.
    + rewrite from_str_radix_no_plus in H; [|cbn; destruct (Ascii.eqb_spec c "+"); [contradiction|reflexivity]|discriminate].
      apply digits_loop_horner in H as [H Hv]; [|lia..]. split; [exact Hv|].
      exists (String c s). split; [discriminate|]. auto.
  - intros (Hv & t & Ht & Hs & H).
    assert (Hl : digits_loop base bound 0 t = Some v) by (apply digits_loop_horner; [lia..|auto]).
    destruct Hs as [-> | ->].
    + rewrite from_str_radix_no_plus; auto. eapply horner_no_plus; [|exact H]. lia.
    + now rewrite from_str_radix_plus.
Qed.

Lemma from_str_radix_fmt u base bound n : 2 <= base <= 16 -> n < bound ->
  from_str_radix base bound (fmt_radix u base n) = Some n.
Proof.
  intros Hb Hn. apply from_str_radix_horner; [lia..|]. split; [assumption|].
  exists (fmt_radix u base n). split; [apply fmt_nonempty|]. split; [auto|]. now apply horner_fmt.
Qed.

Lemma parse_to_string bound n : n < bound -> parse_dec bound (to_string n) = Some n.
Proof. intros H. apply from_str_radix_fmt; [lia|assumption]. Qed.

Lemma to_string_inj a b : to_string a = to_string b -> a = b.
Proof.
  intros H. assert (Ha := horner_fmt false 10 a). assert (Hb := horner_fmt false 10 b).
  unfold to_string in H. rewrite H in Ha. rewrite Hb in Ha by lia.
  specialize (Ha ltac:(lia)). congruence.
Qed.

(** Zero padding does not change the value. *)
Lemma horner_zeros base k acc s : 1 <= base <= 16 ->
  horner base acc (zeros k ++ s) = horner base (acc * base ^ N.of_nat k) s.
Proof.
  intros Hb. revert acc; induction k as [|k IH]; intros acc.
  - cbn [zeros append]. f_equal. rewrite N.pow_0_r. lia.
  - cbn [zeros append horner]. rewrite digit_val_dval by lia.
    change (dval "0") with (Some 0). cbv iota. replace (0 <? base) with true by lia. cbv iota.
    rewrite IH. f_equal. rewrite Nat2N.inj_succ, N.pow_succ_r'. lia.
Qed.
Lemma horner_pad base w s : 1 <= base <= 16 -> horner base 0 (pad0 w s) = horner base 0 s.
Proof. intros Hb. unfold pad0. rewrite horner_zeros by assumption. now rewrite N.mul_0_l. Qed.
Lemma pad0_nonempty w s : s <> EmptyString -> pad0 w s <> EmptyString.
Proof. unfold pad0. destruct s; [congruence|]. intros _. destruct (_ - _)%nat; discriminate. Qed.

Lemma from_scan base bound t n : from_str_radix base bound t = Some n ->
  (match radix_scan base bound t with inl v => Ok v | inr k => Err (EParseInt k) end) = Ok n.
Proof. unfold from_str_radix. destruct (radix_scan base bound t); cbn; congruence. Qed.

Lemma parse_hex u w bound n : n < bound -> parse_num bound (hex u w n) = Ok n.
Proof.
  intros Hn. unfold parse_num, hex.
  change (strip_prefix "0x" ("0x" ++ pad0 w (fmt_radix u 16 n))) with (Some (pad0 w (fmt_radix u 16 n))).
  apply from_scan. apply from_str_radix_horner; [lia..|]. split; [assumption|].
  exists (pad0 w (fmt_radix u 16 n)). split; [apply pad0_nonempty, fmt_nonempty|].
  split; [auto|]. rewrite horner_pad by lia. apply horner_fmt. lia.
Qed.

Lemma digits_no_prefix s p c : sforall is_digit s = true -> is_digit c = false ->
  strip_prefix (p ++ String c "") s = None.
Proof.
  intros Hs Hc. destruct (strip_prefix (p ++ String c "") s) as [r|] eqn:E; [|reflexivity].
  apply strip_prefix_spec in E. subst s. rewrite !sforall_app in Hs. cbn [sforall] in Hs.
  rewrite Hc in Hs. cbn in Hs. rewrite !andb_false_r in Hs. discriminate.
Qed.
Lemma lower_digits s : sforall is_digit s = true -> to_lowercase s = s.
Proof.
  induction s as [|c s IH]; cbn; [auto|]. rewrite andb_true_iff. intros [Hc Hs].
  rewrite IH by assumption. f_equal. unfold lower_ascii. unfold is_digit in Hc.
  replace ((65 <=? byte c) && (byte c <=? 90)) with false by lia. reflexivity.
Qed.
Lemma replace_x_digits s : sforall is_digit s = true -> replace "x" "0" s = s.
Proof.
  intros H. rewrite replace_char. revert H; induction s as [|c s IH]; cbn [sforall smap]; [auto|].
  rewrite andb_true_iff. intros [Hc Hs]. rewrite IH by assumption.
  destruct (Ascii.eqb_spec "x" c) as [<-|]; [discriminate|reflexivity].
Qed.

Lemma parse_dec_text bound n : n < bound -> parse_num bound (to_string n) = Ok n.
Proof.
  intros Hn. unfold parse_num. assert (Hd := to_string_digits n).
  rewrite (digits_no_prefix _ "0" "x") by (auto || reflexivity).
  rewrite (digits_no_prefix _ "0" "X") by (auto || reflexivity).
  rewrite lower_digits by assumption.
  rewrite (digits_no_prefix _ "" "#") by (auto || reflexivity).
  rewrite (digits_no_prefix _ "0" "b") by (auto || reflexivity).
  apply from_scan. now apply parse_to_string.
Qed.

Lemma parse_bin_text bound n : n < bound -> parse_num bound ("0b" ++ fmt_radix false 2 n) = Ok n.
Proof.
  intros Hn. unfold parse_num. cbn [append strip_prefix Ascii.eqb Bool.eqb to_lowercase].
  assert (Hd : sforall is_digit (fmt_radix false 2 n) = true) by (apply fmt_digits; lia).
  change (lower_ascii "0") with "0"%char. cbn [Ascii.eqb Bool.eqb].
  rewrite replace_x_digits by assumption. apply from_scan. rewrite from_str_radix_fmt by lia. reflexivity.
Qed.

Lemma format_parse bound f n : n < bound -> parse_num bound (format_number n f) = Ok n.
Proof.
  intros Hn. destruct f; cbn [format_number]; try (now apply parse_hex).
  - destruct (u32_max <? n); now apply parse_hex.
  - destruct (u32_max <? n); now apply parse_hex.
  - now apply parse_dec_text.
  - now apply parse_bin_text.
Qed.

(** ** The grammar *)
Lemma signed_radix base bound s v : 1 <= base <= 16 -> 0 < bound ->
  from_str_radix base bound s = Some v <-> signed (digits_with (digit base) base) s v /\ v < bound.
Proof.
  intros Hb Hbd. rewrite from_str_radix_horner by assumption.
  assert (E : forall t, t <> EmptyString -> horner base 0 t = Some v <-> digits_with (digit base) base t v).
  { intros t Ht. rewrite horner_positional by lia. unfold digits_with. split.
    - intros (ds & Hf & ->). exists ds. rewrite N.mul_0_l, N.add_0_l. auto.
    - intros (ds & _ & Hf & ->). exists ds. rewrite N.mul_0_l, N.add_0_l. auto. }
  unfold signed. split.
  - intros (Hv & t & Ht & [-> | ->] & H); (split; [|assumption]).
    + left. now apply E.
    + right. exists t. split; [reflexivity|]. now apply E.
  - intros [[H|(t & -> & H)] Hv]; (split; [assumption|]).
    + exists s. assert (s <> EmptyString) by (destruct H as (? & ? & _); assumption).
      split; [assumption|]. split; [auto|]. now apply E.
    + exists t. assert (t <> EmptyString) by (destruct H as (? & ? & _); assumption).
      split; [assumption|]. split; [auto|]. now apply E.
Qed.

(** Binary texts after a character map that turns don't-care characters into 0. *)
Lemma forall2_smap (g : ascii -> ascii) (P Q : ascii -> N -> Prop) t ds :
  (forall c d, P (g c) d <-> Q c d) ->
  Forall2 P (list_ascii_of_string (smap g t)) ds <-> Forall2 Q (list_ascii_of_string t) ds.
Proof.
  intros H. revert ds; induction t as [|c t IH]; intros ds; cbn.
  - split; intros F; inversion F; constructor.
  - split; intros F; inversion F; subst; constructor; try (now apply H); now apply IH.
Qed.
Lemma signed_smap (g : ascii -> ascii) base P Q t v :
  (forall c d, P (g c) d <-> Q c d) -> (forall c, g c = "+"%char <-> c = "+"%char) ->
  signed (digits_with P base) (smap g t) v <-> signed (digits_with Q base) t v.
Proof.
  intros H Hp.
  assert (E : forall t, digits_with P base (smap g t) v <-> digits_with Q base t v).
  { intros t'. unfold digits_with. split; intros (ds & Hn & Hf & ->); exists ds; repeat split.
    - intros ->. now apply Hn.
    - now apply (forall2_smap g P Q).
    - destruct t'; [now intros|discriminate].
    - now apply (forall2_smap g P Q). }
  unfold signed. rewrite E. split; (intros [K|(t' & Ht & K)]; [left; exact K|right]).
  - destruct t as [|c t]; [discriminate|]. cbn in Ht. injection Ht as Hc Ht. subst t'.
    apply Hp in Hc as ->. exists t. split; [reflexivity|]. now apply E.
  - subst t. exists (smap g t'). cbn. rewrite (proj2 (Hp "+"%char)) by reflexivity.
    split; [reflexivity|]. now apply E.
Qed.

Lemma to_lowercase_smap s : to_lowercase s = smap lower_ascii s.
Proof. induction s as [|c s IH]; cbn; [|rewrite IH]; reflexivity. Qed.
Lemma smap_smap f g s : smap f (smap g s) = smap (fun c => f (g c)) s.
Proof. induction s as [|c s IH]; cbn; [|rewrite IH]; reflexivity. Qed.

Definition x_to_0 (c : ascii) : ascii := if Ascii.eqb "x" c then "0" else c.

Lemma digit2 c d : digit 2 c d <-> (c = "0"%char /\ d = 0) \/ (c = "1"%char /\ d = 1).
Proof.
  rewrite <- digit_val_spec by lia. split.
  - assert (A : forall c, match digit_val 2 c with
      | Some d => (Ascii.eqb c "0" && (d =? 0)) || (Ascii.eqb c "1" && (d =? 1)) | None => true end = true)
      by (apply ascii_all; vm_compute; reflexivity).
    intros H. specialize (A c). rewrite H in A.
    rewrite orb_true_iff, !andb_true_iff, !Ascii.eqb_eq, !N.eqb_eq in A. exact A.
  - intros [[-> ->]|[-> ->]]; reflexivity.
Qed.

Lemma x_to_0_bit c d : digit 2 (x_to_0 c) d <-> bit_or_x ["x"]%char c d.
Proof.
  unfold bit_or_x, x_to_0. cbn [In]. rewrite !digit2.
  destruct (Ascii.eqb_spec "x" c) as [<-|Hc].
  - split; [intros [[_ ->]|[? _]]; [auto|discriminate]|].
    intros [[[? _]|[? _]]|[_ ->]]; try discriminate. auto.
  - intuition congruence.
Qed.
Lemma lower_x c : lower_ascii c = "x"%char <-> c = "x"%char \/ c = "X"%char.
Proof.
  split.
  - assert (A : forall c, implb (Ascii.eqb (lower_ascii c) "x") (Ascii.eqb c "x" || Ascii.eqb c "X") = true)
      by (apply ascii_all; vm_compute; reflexivity).
    intros H. specialize (A c). rewrite H in A. cbn in A.
    rewrite orb_true_iff, !Ascii.eqb_eq in A. exact A.
  - intros [-> | ->]; reflexivity.
Qed.
Lemma lower_not_alpha c x : lower_ascii x = x ->
  negb ((97 <=? byte x) && (byte x <=? 122)) = true -> lower_ascii c = x <-> c = x.
Proof.
  intros Hx Hn. split; [|intros ->; exact Hx].
  unfold lower_ascii. destruct ((65 <=? byte c) && (byte c <=? 90)) eqn:E; [|auto].
  intros <-. rewrite byte_chr in Hn by lia. lia.
Qed.
Lemma xX_to_0_bit c d : digit 2 (x_to_0 (lower_ascii c)) d <-> bit_or_x ["x"; "X"]%char c d.
Proof.
  rewrite x_to_0_bit. unfold bit_or_x. cbn [In]. rewrite !digit2.
  rewrite (lower_not_alpha c "0"), (lower_not_alpha c "1") by reflexivity.
  assert (E : "x"%char = lower_ascii c <-> ("x"%char = c \/ "X"%char = c)).
  { split; intros E; [symmetry in E; apply lower_x in E|symmetry; apply lower_x]; intuition. }
  rewrite E. tauto.
Qed.

Lemma x_to_0_plus c : x_to_0 c = "+"%char <-> c = "+"%char.
Proof. unfold x_to_0. destruct (Ascii.eqb_spec "x" c) as [<-|]; intuition discriminate. Qed.

Lemma replace_x s : replace "x" "0" s = smap x_to_0 s.
Proof. apply replace_char. Qed.

Lemma strip_hash_lower s :
  strip_prefix "#" (to_lowercase s) =
  match strip_prefix "#" s with Some t => Some (to_lowercase t) | None => None end.
Proof.
  destruct s as [|c s]; [reflexivity|]. cbn [to_lowercase strip_prefix].
  destruct (Ascii.eqb_spec "#" c) as [<-|Hc]; [reflexivity|].
  destruct (Ascii.eqb_spec "#" (lower_ascii c)) as [E|]; [|reflexivity].
  exfalso. apply Hc. symmetry. symmetry in E. revert E. apply lower_not_alpha; reflexivity.
Qed.

Lemma not_decimal s p c t v : s = (p ++ String c t)%string -> digit_val 10 c = None -> no_plus s = true ->
  Ascii.eqb c "+" = false -> ~ signed (digits_with (digit 10) 10) s v.
Proof.
  intros -> Hc Hp Hcp Hs.
  assert (K : forall s, digits_with (digit 10) 10 s v -> forall p t, s = (p ++ String c t)%string -> False).
  { clear -Hc. intros s (ds & _ & Hf & _). revert ds Hf. induction s as [|a s IH]; intros ds Hf p t E.
    - destruct p; discriminate.
    - cbn in Hf. inversion Hf as [|? d ? ds' Hd Hf']; subst.
      destruct p as [|b p]; cbn in E; injection E as -> E.
      + apply digit_val_spec in Hd; [congruence|lia].
      + eapply IH; eassumption. }
  destruct Hs as [H|(t' & E & H)].
  - eapply K; [exact H|reflexivity].
  - destruct p as [|b p]; cbn in E; injection E as E1 E2.
    + subst. discriminate Hcp.
    + cbn in Hp. rewrite E1 in Hp. discriminate Hp.
Qed.

Lemma parse_num_spec bound s v : 0 < bound ->
  parse_num bound s = Ok v <-> number_text s v /\ v < bound.
Proof.
  intros Hbd. unfold parse_num.
  destruct (strip_prefix "0x" s) as [t|] eqn:E1.
  { apply strip_prefix_spec in E1. subst s.
    transitivity (from_str_radix 16 bound t = Some v).
    { unfold from_str_radix. destruct (radix_scan 16 bound t); cbn; split; congruence. }
    rewrite signed_radix by lia. split; intros [H Hv]; (split; [|assumption]).
    - eapply nt_hex; [left; reflexivity|assumption].
    - destruct H as [H|t' [E|E] H|t' E H|t' E H].
      + exfalso. eapply (not_decimal _ "0" "x"); [reflexivity..|exact H].
      + apply sapp_cancel_l in E. now subst.
      + discriminate E.
      + discriminate E.
      + discriminate E. }
  destruct (strip_prefix "0X" s) as [t|] eqn:E2.
  { apply strip_prefix_spec in E2. subst s.
    transitivity (from_str_radix 16 bound t = Some v).
    { unfold from_str_radix. destruct (radix_scan 16 bound t); cbn; split; congruence. }
    rewrite signed_radix by lia. split; intros [H Hv]; (split; [|assumption]).
    - eapply nt_hex; [right; reflexivity|assumption].
    - destruct H as [H|t' [E|E] H|t' E H|t' E H].
      + exfalso. eapply (not_decimal _ "0" "X"); [reflexivity..|exact H].
      + discriminate E.
      + apply sapp_cancel_l in E. now subst.
      + discriminate E.
      + discriminate E. }
  rewrite strip_hash_lower. destruct (strip_prefix "#" s) as [t|] eqn:E3.
  { apply strip_prefix_spec in E3. subst s.
    transitivity (from_str_radix 2 bound (replace "x" "0" (to_lowercase t)) = Some v).
    { unfold from_str_radix. destruct (radix_scan 2 bound (replace "x" "0" (to_lowercase t))); cbn; split; congruence. }
    rewrite replace_x, to_lowercase_smap, smap_smap, signed_radix by lia.
    rewrite (signed_smap _ 2 (digit 2) (bit_or_x ["x"; "X"]%char)).
    2: apply xX_to_0_bit.
    2: { intros c. rewrite x_to_0_plus. apply lower_not_alpha; reflexivity. }
    split; intros [H Hv]; (split; [|assumption]).
    - eapply nt_hash; [reflexivity|assumption].
    - destruct H as [H|t' [E|E] H|t' E H|t' E H].
      + exfalso. eapply (not_decimal _ "" "#"); [reflexivity..|exact H].
      + discriminate E.
      + discriminate E.
      + apply sapp_cancel_l in E. now subst.
      + discriminate E. }
  destruct (strip_prefix "0b" s) as [t|] eqn:E4.
  { apply strip_prefix_spec in E4. subst s.
    transitivity (from_str_radix 2 bound (replace "x" "0" t) = Some v).
    { unfold from_str_radix. destruct (radix_scan 2 bound (replace "x" "0" t)); cbn; split; congruence. }
    rewrite replace_x, signed_radix by lia.
    rewrite (signed_smap _ 2 (digit 2) (bit_or_x ["x"]%char)).
    2: apply x_to_0_bit.
    2: apply x_to_0_plus.
    split; intros [H Hv]; (split; [|assumption]).
    - eapply nt_bin; [reflexivity|assumption].
    - destruct H as [H|t' [E|E] H|t' E H|t' E H].
      + exfalso. eapply (not_decimal _ "0" "b"); [reflexivity..|exact H].
      + discriminate E.
      + discriminate E.
      + discriminate E.
      + apply sapp_cancel_l in E. now subst. }
  transitivity (parse_dec bound s = Some v).
  { unfold parse_dec, from_str_radix. destruct (radix_scan 10 bound s); cbn; split; congruence. }
  unfold parse_dec. rewrite signed_radix by lia.
  split; intros [H Hv]; (split; [|assumption]).
  - now apply nt_dec.
  - destruct H as [H|t' [E|E] H|t' E H|t' E H]; [assumption|exfalso..];
      apply strip_prefix_spec in E; congruence.
Qed.

Lemma parse_num_total bound s : (exists v, parse_num bound s = Ok v) \/ exists k, parse_num bound s = Err (EParseInt k).
Proof. unfold parse_num. match goal with |- context [match ?o with inl _ => _ | inr _ => _ end] => destruct o end; eauto. Qed.
