(** Proofs about index texts, instances and masks. *)
From Verif Require Import BaseFacts Types Arrays NumProofs SpecNum SpecArray.

(** ** Canonical numerals *)

Lemma positional_bound base ds : Forall (fun d => d < base) ds ->
  positional base ds < base ^ N.of_nat (List.length ds).
Proof.
  induction 1 as [|d ds Hd _ IH]; [cbn; lia|].
  cbn [positional List.length]. rewrite Nat2N.inj_succ, N.pow_succ_r'. nia.
Qed.

Lemma positional_inj base ds ds' :
  Forall (fun d => d < base) ds -> Forall (fun d => d < base) ds' ->
  List.length ds = List.length ds' -> positional base ds = positional base ds' -> ds = ds'.
Proof.
  intros H; revert ds'; induction H as [|d ds Hd Hds IH]; intros ds' H' HL E.
  - destruct ds'; [reflexivity|discriminate].
  - destruct ds' as [|d' ds']; [discriminate|]. inversion H' as [|? ? Hd' Hds']; subst.
    cbn in HL. injection HL as HL. cbn [positional] in E. rewrite <- HL in E.
    pose proof (positional_bound _ _ Hds) as B. pose proof (positional_bound _ _ Hds') as B'.
    rewrite <- HL in B'. set (P := base ^ N.of_nat (List.length ds)) in *.
    assert (d = d') by nia. subst d'. f_equal. apply IH; auto. lia.
Qed.

Lemma digit10_inj c c' d : digit 10 c d -> digit 10 c' d -> c = c'.
Proof.
  intros [H Hd] [H' _]. cbn in H, H'.
  repeat (destruct H as [H|H]; [injection H as <- <-|]); try lia; try contradiction;
  repeat (destruct H' as [H'|H']; [try (injection H' as <-; reflexivity); try discriminate|]);
  contradiction.
Qed.

Lemma digits_bound base s ds : Forall2 (digit base) (list_ascii_of_string s) ds -> Forall (fun d => d < base) ds.
Proof. induction 1 as [|c d l ds [_ Hd]]; constructor; auto. Qed.

Lemma list_ascii_inj s t : list_ascii_of_string s = list_ascii_of_string t -> s = t.
Proof.
  intros H. rewrite <- (string_of_list_ascii_of_string s), H. apply string_of_list_ascii_of_string.
Qed.

Lemma forall2_digit10_inj l l' ds : Forall2 (digit 10) l ds -> Forall2 (digit 10) l' ds -> l = l'.
Proof.
  intros H; revert l'; induction H as [|c d l ds Hc _ IH]; intros l' H'; inversion H'; subst; [reflexivity|].
  f_equal; [eapply digit10_inj; eassumption|auto].
Qed.

Lemma digit10_zero c d : digit 10 c d -> d = 0 -> c = "0"%char.
Proof. intros H ->. eapply digit10_inj; [exact H|]. split; [left; reflexivity|lia]. Qed.

(** The digits of a canonical numeral start with a non-zero digit, or are just 0. *)
Definition lead (ds : list N) : Prop := ds = [0] \/ exists d ds', ds = d :: ds' /\ 0 < d.

Lemma lead_length ds ds' : Forall (fun d => d < 10) ds -> Forall (fun d => d < 10) ds' ->
  lead ds -> lead ds' -> positional 10 ds = positional 10 ds' -> List.length ds = List.length ds'.
Proof.
  assert (K : forall ds ds', Forall (fun d => d < 10) ds -> Forall (fun d => d < 10) ds' ->
    lead ds -> lead ds' -> positional 10 ds = positional 10 ds' -> (List.length ds <= List.length ds')%nat).
  { clear. intros ds ds' F F' [->|(d & t & -> & Hd)] L' E.
    - destruct L' as [->|(d' & t' & -> & _)]; cbn; lia.
    - pose proof (positional_bound _ _ F') as B'. rewrite <- E in B'. cbn [positional] in B'.
      cbn [List.length]. destruct (Nat.le_gt_cases (List.length ds') (List.length t)) as [Hle|]; [exfalso|lia].
      assert (10 ^ N.of_nat (List.length ds') <= 10 ^ N.of_nat (List.length t)) by (apply N.pow_le_mono_r; lia).
      nia. }
  intros F F' L L' E. pose proof (K ds ds' F F' L L' E). pose proof (K ds' ds F' F L' L (eq_sym E)). lia.
Qed.

Lemma numeral_lead n s : numeral n s -> exists ds, Forall2 (digit 10) (list_ascii_of_string s) ds /\
  lead ds /\ n = positional 10 ds.
Proof.
  intros [(ds & Hne & F & ->) Hz]. exists ds. split; [assumption|]. split; [|reflexivity].
  destruct s as [|c s]; [congruence|]. cbn in F. inversion F as [|? d ? ds' Hd F']; subst.
  destruct (N.eq_0_gt_0_cases d) as [->|Hpos].
  - apply digit10_zero in Hd as ->; [|reflexivity]. destruct Hz as [E|E].
    + injection E as ->. inversion F'; subst. now left.
    + exfalso. now apply (E s).
  - right. eauto.
Qed.

Lemma numeral_unique n s t : numeral n s -> numeral n t -> s = t.
Proof.
  intros Hs Ht. apply numeral_lead in Hs as (ds & F & L & ->), Ht as (ds' & F' & L' & E).
  apply list_ascii_inj.
  assert (ds = ds'); [|subst; eapply forall2_digit10_inj; eassumption].
  eapply positional_inj; eauto using digits_bound.
  eapply lead_length; eauto using digits_bound.
Qed.

Lemma fmt_go_lead u fuel n acc : 0 < n -> n < 2 ^ N.of_nat fuel ->
  exists c t, fmt_go u 10 fuel n acc = String c t /\ c <> "0"%char.
Proof.
  revert n acc; induction fuel as [|fuel IH]; intros n acc Hn Hb.
  - change (2 ^ N.of_nat 0) with 1 in Hb. lia.
  - cbn [fmt_go]. rewrite Nat2N.inj_succ, N.pow_succ_r' in Hb.
    destruct (N.eqb_spec (n / 10) 0) as [E|E].
    + eexists _, _. split; [reflexivity|]. intros H.
      assert (n mod 10 = n) by lia.
      assert (V := digit_char_val u 10 (n mod 10) ltac:(lia) ltac:(lia)).
      rewrite H in V. change (digit_val 10 "0") with (Some 0) in V. injection V as V. lia.
    + apply IH; lia.
Qed.

Lemma to_string_numeral n : numeral n (to_string n).
Proof.
  split.
  - assert (H := horner_fmt false 10 n ltac:(lia)). apply horner_positional in H as (ds & F & E); [|lia].
    exists ds. split; [apply fmt_nonempty|]. split; [exact F|]. lia.
  - destruct (N.eq_0_gt_0_cases n) as [->|Hn]; [left; reflexivity|right].
    intros t E. unfold to_string, fmt_radix in E.
    destruct (fmt_go_lead false (N.size_nat n) n "" Hn (size_nat_bound n)) as (c & t' & E' & Hc).
    rewrite E' in E. injection E as E _. contradiction.
Qed.

Lemma numeral_to_string n s : numeral n s <-> s = to_string n.
Proof.
  split; [|intros ->; apply to_string_numeral].
  intros H. eapply numeral_unique; [exact H|apply to_string_numeral].
Qed.
Lemma numeral_fun n n' s : numeral n s -> numeral n' s -> n = n'.
Proof. rewrite !numeral_to_string. intros -> E. now apply to_string_inj in E. Qed.

(** ** Cutting *)
Lemma free_of_cons c a s : free_of c (String a s) <-> a <> c /\ free_of c s.
Proof. unfold free_of; cbn. intuition. Qed.
Lemma free_of_app c a b : free_of c (a ++ b) <-> free_of c a /\ free_of c b.
Proof. induction a as [|x a IH]; cbn [append]; [unfold free_of at 2; cbn; tauto|rewrite !free_of_cons, IH; tauto]. Qed.
Lemma free_of_contains c s : contains_char c s = false <-> free_of c s.
Proof.
  unfold free_of. rewrite <- contains_char_spec. destruct (contains_char c s); intuition discriminate.
Qed.

Lemma split_nonempty c s : split c s <> [].
Proof. destruct s as [|a s]; cbn; [discriminate|]. destruct (Ascii.eqb a c); [discriminate|]. destruct (split c s); discriminate. Qed.

Lemma glue_cons c a h t : glue c (String a h :: t) = String a (glue c (h :: t)).
Proof. destruct t; reflexivity. Qed.

Lemma split_cut c s : cut c s (split c s).
Proof.
  unfold cut. split; [apply split_nonempty|].
  induction s as [|a s [IH1 IH2]].
  - split; [reflexivity|]. repeat constructor. now intros [].
  - cbn [split]. destruct (Ascii.eqb_spec a c) as [->|Hac].
    + split.
      * destruct (split c s) eqn:E; [now apply split_nonempty in E|]. cbn [glue append]. now rewrite IH1.
      * constructor; [now intros []|assumption].
    + destruct (split c s) as [|h t] eqn:E; [now apply split_nonempty in E|].
      rewrite glue_cons, <- IH1. split; [reflexivity|].
      inversion IH2; subst. constructor; [|assumption]. rewrite free_of_cons. auto.
Qed.

Lemma glue_split c ps : ps <> [] -> Forall (free_of c) ps -> split c (glue c ps) = ps.
Proof.
  intros Hne F. induction F as [|p ps Hp F IH]; [congruence|].
  assert (K : forall q, split c (p ++ String c q) = p :: split c q /\ split c p = [p]).
  { clear -Hp. intros q. induction p as [|a p IH].
    - cbn. rewrite Ascii.eqb_refl. auto.
    - rewrite free_of_cons in Hp. destruct Hp as [Ha Hp]. specialize (IH Hp) as [IH1 IH2].
      cbn [append split]. rewrite IH1, IH2. destruct (Ascii.eqb_spec a c); [contradiction|auto]. }
  destruct ps as [|p' ps].
  - cbn [glue]. apply (K ""%string).
  - change (glue c (p :: p' :: ps)) with (p ++ String c (glue c (p' :: ps)))%string.
    rewrite (proj1 (K _)). f_equal. apply IH. discriminate.
Qed.

Lemma cut_split c s ps : cut c s ps <-> ps = split c s.
Proof.
  split; [|intros ->; apply split_cut].
  intros (Hne & -> & F). symmetry. now apply glue_split.
Qed.

(** ** parse_indexes *)
Lemma split_once_spec c s x y : split_once c s = Some (x, y) <-> s = (x ++ String c y)%string /\ free_of c x.
Proof.
  revert x; induction s as [|a s IH]; intros x; cbn [split_once].
  - split; [discriminate|]. intros [H _]. destruct x; discriminate.
  - destruct (Ascii.eqb_spec a c) as [->|Hac].
    + split.
      * intros H; injection H as <- <-. split; [reflexivity|now intros []].
      * intros [H Hf]. destruct x as [|b x]; cbn in H; [injection H as H1; now subst|].
        injection H as H1 H2. subst b. rewrite free_of_cons in Hf. tauto.
    + destruct (split_once c s) as [[x' y']|] eqn:E.
      * split.
        -- intros H; injection H as <- <-. destruct (proj1 (IH x') eq_refl) as [-> Hf].
           split; [reflexivity|]. rewrite free_of_cons; auto.
        -- intros [H Hf]. destruct x as [|b x]; cbn in H; [injection H as -> H; congruence|].
           injection H as -> H. rewrite free_of_cons in Hf. destruct Hf as [_ Hf].
           assert (K : Some (x', y') = Some (x, y)) by (apply IH; auto). now injection K as -> ->.
      * split; [discriminate|]. intros [H Hf].
        destruct x as [|b x]; cbn in H; [injection H as -> H; congruence|].
        injection H as -> H. rewrite free_of_cons in Hf. destruct Hf as [_ Hf].
        assert (K : None = Some (x, y)) by (apply IH; auto). discriminate.
Qed.
Lemma split_once_none c s : split_once c s = None <-> free_of c s.
Proof.
  induction s as [|a s IH]; cbn [split_once].
  - split; [intros _ []|reflexivity].
  - rewrite free_of_cons. destruct (Ascii.eqb_spec a c) as [->|Hac]; [intuition discriminate|].
    destruct (split_once c s) as [[x y]|]; [split; [discriminate|intros [_ H]; apply IH in H; discriminate]|].
    intuition.
Qed.

Lemma parse_dec_signed bound s v : 0 < bound ->
  parse_dec bound s = Some v <-> signed (digits_with (digit 10) 10) s v /\ v < bound.
Proof. intros. apply signed_radix; lia. Qed.

Lemma digits_free_dash s v : digits_with (digit 10) 10 s v -> free_of "-" s.
Proof.
  intros (ds & _ & F & _). revert ds F; induction s as [|c s IH]; intros ds F; [intros []|].
  cbn in F. inversion F; subst. rewrite free_of_cons. split; [|eauto].
  intros ->. match goal with H : digit 10 "-" _ |- _ => apply digit_val_spec in H; [discriminate|lia] end.
Qed.
Lemma signed_free_dash s v : signed (digits_with (digit 10) 10) s v -> free_of "-" s.
Proof.
  intros [H|(t & -> & H)]; [now apply digits_free_dash in H|].
  rewrite free_of_cons. split; [discriminate|]. now apply digits_free_dash in H.
Qed.

Lemma range_incl_length a b : List.length (range_incl a b) = N.to_nat (b + 1 - a).
Proof. unfold range_incl. now rewrite map_length, upto_length. Qed.
Lemma range_incl_nth a b i x : nth_error (range_incl a b) i = Some x <->
  (i < N.to_nat (b + 1 - a))%nat /\ x = a + N.of_nat i.
Proof.
  unfold range_incl. rewrite nth_error_map.
  destruct (Nat.lt_ge_cases i (N.to_nat (b + 1 - a))) as [H|H].
  - rewrite upto_nth by assumption. cbn. split; [intros [= <-]; auto|intros [_ ->]; reflexivity].
  - rewrite (proj2 (nth_error_None _ _)) by (rewrite upto_length; lia). cbn. split; [discriminate|lia].
Qed.
Lemma range_incl_nil a b : range_incl a b = [] <-> b < a.
Proof.
  split; intros H.
  - assert (L := range_incl_length a b). rewrite H in L. cbn in L. lia.
  - destruct (range_incl a b) eqn:E; [reflexivity|].
    assert (L := range_incl_length a b). rewrite E in L. cbn in L. lia.
Qed.

Lemma list_ext {A} (l l' : list A) :
  List.length l = List.length l' ->
  (forall i a b, nth_error l i = Some a -> nth_error l' i = Some b -> a = b) -> l = l'.
Proof.
  revert l'; induction l as [|x l IH]; intros [|y l'] HL H; try discriminate; [reflexivity|].
  f_equal; [apply (H 0%nat); reflexivity|]. apply IH; [now injection HL|].
  intros i a b; apply (H (S i)).
Qed.

Lemma byte_nat c : byte c = N.of_nat (nat_of_ascii c).
Proof. unfold byte, nat_of_ascii. now rewrite N2Nat.id. Qed.
Lemma chr_nat n : chr n = ascii_of_nat (N.to_nat n).
Proof. unfold chr, ascii_of_nat. now rewrite N2Nat.id. Qed.

Lemma letters_dec a b : ((is_lower a && is_lower b) || (is_upper a && is_upper b)) = true <-> same_case_letters a b.
Proof. unfold is_lower, is_upper, same_case_letters. rewrite !byte_nat. lia. Qed.

Lemma letter_not_dec a b : same_case_letters a b ->
  parse_dec pow32 (str1 a) = None.
Proof.
  intros H. destruct (parse_dec pow32 (str1 a)) as [v|] eqn:E; [|reflexivity].
  apply parse_dec_signed in E; [|reflexivity]. destruct E as [[E|(t & E & (ds & Hn & _))] _].
  - destruct E as (ds & _ & F & _). cbn in F. inversion F as [|? d ? ? Hd _]; subst.
    destruct Hd as [Hd Hlt]. unfold same_case_letters in H. cbn in Hd.
    repeat (destruct Hd as [Hd|Hd]; [injection Hd as <- <-; exfalso;
      match type of H with context [nat_of_ascii ?c] =>
        let n := eval vm_compute in (nat_of_ascii c) in change (nat_of_ascii c) with n in H end; lia|]). contradiction.
  - injection E as -> <-. now destruct Hn.
Qed.

Lemma parse_indexes_range text A B a b :
  text = (A ++ String "-" B)%string -> parse_dec pow32 A = Some a -> parse_dec pow32 B = Some b ->
  parse_indexes text = if b <? a then None else Some (map to_string (range_incl a b)).
Proof.
  intros -> Ha Hb. unfold parse_indexes.
  assert (Hc : contains_char "-" (A ++ String "-" B) = true).
  { destruct (contains_char "-" (A ++ String "-" B)) eqn:E; [reflexivity|].
    apply free_of_contains in E. apply free_of_app in E as [_ E]. rewrite free_of_cons in E. tauto. }
  rewrite Hc. rewrite (proj2 (split_once_spec "-" _ A B)).
  2: { split; [reflexivity|]. apply parse_dec_signed in Ha as [Ha _]; [|reflexivity].
       eapply signed_free_dash; eassumption. }
  rewrite Ha, Hb. destruct (N.ltb_spec b a) as [H|H].
  - rewrite (proj2 (range_incl_nil a b) H). reflexivity.
  - destruct (range_incl a b) eqn:E; [apply range_incl_nil in E; lia|]. reflexivity.
Qed.

Lemma to_string_list a b l :
  (map to_string (range_incl a b) = l /\ a <= b) <->
  (a <= b /\ N.of_nat (List.length l) = b - a + 1 /\
   forall i s, nth_error l i = Some s -> numeral (a + N.of_nat i) s).
Proof.
  split.
  - intros [<- Hab]. split; [assumption|]. rewrite map_length, range_incl_length. split; [lia|].
    intros i s Hi. rewrite nth_error_map in Hi.
    destruct (nth_error (range_incl a b) i) as [x|] eqn:E; [|discriminate].
    apply range_incl_nth in E as [_ ->]. cbn in Hi. injection Hi as <-. apply to_string_numeral.
  - intros (Hab & HL & Hn). split; [|assumption]. apply list_ext.
    + rewrite map_length, range_incl_length. lia.
    + intros i x y Hx Hy. apply Hn, numeral_to_string in Hy. subst y.
      rewrite nth_error_map in Hx. destruct (nth_error (range_incl a b) i) as [z|] eqn:E; [|discriminate].
      apply range_incl_nth in E as [_ ->]. cbn in Hx. congruence.
Qed.

Lemma letter_list a b l : same_case_letters a b ->
  (map (fun n => str1 (chr n)) (range_incl (byte a) (byte b)) = l /\ byte a <= byte b) <->
  ((nat_of_ascii a <= nat_of_ascii b)%nat /\ List.length l = (nat_of_ascii b - nat_of_ascii a + 1)%nat /\
   forall i s, nth_error l i = Some s -> s = letter_at a i).
Proof.
  intros HL. rewrite !byte_nat.
  assert (Hi : forall i, str1 (chr (N.of_nat (nat_of_ascii a) + N.of_nat i)) = letter_at a i).
  { intros i. unfold str1, letter_at. rewrite chr_nat. f_equal. f_equal. lia. }
  split.
  - intros [<- Hab]. split; [lia|]. rewrite map_length, range_incl_length. split; [lia|].
    intros i s Hs. rewrite nth_error_map in Hs.
    destruct (nth_error (range_incl _ _) i) as [x|] eqn:E; [|discriminate].
    apply range_incl_nth in E as [_ ->]. cbn [option_map] in Hs. injection Hs as <-. apply Hi.
  - intros (Hab & HLen & Hn). split; [|lia]. apply list_ext.
    + rewrite map_length, range_incl_length. lia.
    + intros i x y Hx Hy. apply Hn in Hy. subst y.
      rewrite nth_error_map in Hx. destruct (nth_error (range_incl _ _) i) as [z|] eqn:E; [|discriminate].
      apply range_incl_nth in E as [_ ->]. cbn [option_map] in Hx. injection Hx as <-. apply Hi.
Qed.

Lemma parse_indexes_spec text l : parse_indexes text = Some l <-> index_list text l.
Proof.
  split.
  - unfold parse_indexes. destruct (contains_char "-" text) eqn:Hc.
    + destruct (split_once "-" text) as [[A B]|] eqn:Hs; [|discriminate].
      apply split_once_spec in Hs as [-> Hf].
      destruct (parse_dec pow32 A) as [a|] eqn:HA, (parse_dec pow32 B) as [b|] eqn:HB.
      1: { intros H.
           assert (H' : map to_string (range_incl a b) = l /\ a <= b).
           { destruct (map to_string (range_incl a b)) as [|x xs] eqn:E; [discriminate|].
             cbn in H. injection H as <-. split; [reflexivity|].
             destruct (N.leb_spec a b) as [|Hlt]; [assumption|]. apply range_incl_nil in Hlt.
             rewrite Hlt in E. discriminate. }
           apply to_string_list in H' as (Hab & HL & Hn).
           apply parse_dec_signed in HA as [HA Ha], HB as [HB Hb]; try reflexivity.
           exact (il_numbers _ _ A B a b eq_refl HA HB Ha Hb Hab HL Hn). }
      all: destruct A as [|x [|? ?]], B as [|y [|? ?]]; try discriminate;
        destruct ((is_lower x && is_lower y) || (is_upper x && is_upper y)) eqn:HL; try discriminate;
        apply letters_dec in HL; intros H;
        (assert (H' : map (fun n => str1 (chr n)) (range_incl (byte x) (byte y)) = l /\ byte x <= byte y);
         [ destruct (map (fun n => str1 (chr n)) (range_incl (byte x) (byte y))) as [|z zs] eqn:E; [discriminate|];
           cbn [is_nil] in H; injection H as <-; split; [reflexivity|];
           destruct (N.leb_spec (byte x) (byte y)) as [|Hlt]; [assumption|]; apply range_incl_nil in Hlt;
           rewrite Hlt in E; discriminate
         | apply (letter_list _ _ _ HL) in H' as (Hab & HLen & Hn); exact (il_letters _ _ x y eq_refl HL Hab HLen Hn) ]).
    + intros H. apply free_of_contains in Hc. apply il_list; [assumption|].
      apply cut_split. destruct (split "," text); [discriminate|]. cbn in H. congruence.
  - intros [A B a b -> HA HB Ha Hb Hab HL Hn|a b -> Hc Hab HL Hn|Hf Hcut].
    + rewrite (parse_indexes_range _ A B a b); [|reflexivity|apply parse_dec_signed; auto; reflexivity..].
      replace (b <? a) with false by lia. f_equal.
      apply (proj2 (to_string_list a b l)). auto.
    + assert (Ea := letter_not_dec a b Hc). unfold str1 in Ea.
      assert (H' : map (fun n => str1 (chr n)) (range_incl (byte a) (byte b)) = l /\ byte a <= byte b)
        by (apply letter_list; auto).
      apply letters_dec in Hc as Hc'.
      assert (a <> "-"%char) by (intros ->; vm_compute in Hc; lia).
      unfold parse_indexes. cbn [contains_char split_once].
      destruct (Ascii.eqb_spec a "-"); [contradiction|].
      change (Ascii.eqb "-" "-") with true. cbn [orb]. cbv iota beta.
      rewrite Ea. rewrite Hc'. destruct H' as [-> _].
      destruct l; [cbn in HL; lia|reflexivity].
    + unfold parse_indexes. rewrite (proj2 (free_of_contains _ _) Hf).
      apply cut_split in Hcut as ->. destruct (split "," text) eqn:E; [now apply split_nonempty in E|reflexivity].
Qed.
