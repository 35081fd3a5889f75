(** Proofs about the range form of index lists. *)
From Verif Require Import BaseFacts Types Arrays NumProofs SpecNum SpecArray ArrayProofs.

Lemma index_at_text d i s : index_at d i = Ok s <-> index_text d i s.
Proof.
  unfold index_at, index_text, index_N, nth_N. destruct (de_index d) as [l|].
  - destruct (nth_error l (N.to_nat i)); split; congruence.
  - rewrite numeral_to_string. split; congruence.
Qed.

Lemma canonical_loop_ok d is vs :
  canonical_loop d is = Ok (Some vs) <->
  Forall2 (fun i v => index_at d i = Ok (to_string v) /\ v < pow32) is vs.
Proof.
  revert vs; induction is as [|i is IH]; intros vs; cbn [canonical_loop].
  - split; [intros H; injection H as <-; constructor|intros H; inversion H; reflexivity].
  - destruct (index_at d i) as [s|e|p] eqn:E; cbn [bind].
    2, 3: split; [discriminate|intros H; inversion H as [|? ? ? ? [K _] ?]; subst; congruence].
    destruct (parse_dec pow32 s) as [v|] eqn:P.
    + destruct (seqb (to_string v) s) eqn:S; cbn [negb].
      * apply seqb_eq in S. subst s.
        assert (Hv : v < pow32) by (apply parse_dec_signed in P; [tauto|reflexivity]).
        destruct (canonical_loop d is) as [[l|]|e|p] eqn:C; cbn [bind].
        -- split.
           ++ intros H; injection H as <-. constructor; [auto|]. now apply IH.
           ++ intros H; inversion H as [|? v' ? vs' [K1 K2] K3]; subst. apply IH in K3.
              injection K3 as ->. rewrite E in K1. injection K1 as K1. apply to_string_inj in K1. now subst.
        -- split; [discriminate|]. intros H; inversion H as [|? ? ? ? ? K3]; subst. apply IH in K3. discriminate.
        -- split; [discriminate|]. intros H; inversion H as [|? ? ? ? ? K3]; subst. apply IH in K3. discriminate.
        -- split; [discriminate|]. intros H; inversion H as [|? ? ? ? ? K3]; subst. apply IH in K3. discriminate.
      * split; [discriminate|]. intros H; inversion H as [|? v' ? ? [K1 K2] K3]; subst.
        rewrite E in K1. injection K1 as ->. rewrite parse_to_string in P by assumption. injection P as <-.
        rewrite seqb_refl in S. discriminate.
    + split; [discriminate|]. intros H; inversion H as [|? v' ? ? [K1 K2] K3]; subst.
      rewrite E in K1. injection K1 as ->. rewrite parse_to_string in P by assumption. discriminate.
Qed.

(** With enough indexes the loop itself never panics. *)
Lemma canonical_loop_total d is : (forall i, In i is -> exists s, index_at d i = Ok s) ->
  canonical_loop d is = Ok None \/ exists vs, canonical_loop d is = Ok (Some vs).
Proof.
  induction is as [|i is IH]; intros H; cbn [canonical_loop]; [right; eauto|].
  destruct (H i (or_introl eq_refl)) as [s ->]. cbn [bind].
  destruct (parse_dec pow32 s); [|now left]. destruct (seqb _ s); [|now left]. cbn [negb].
  destruct IH as [->|[vs ->]]; [intros j Hj; apply H; now right|now left|right; cbn [bind]; eauto].
Qed.

Lemma fold_min l a : In (fold_left N.min l a) (a :: l) /\ forall y, In y (a :: l) -> fold_left N.min l a <= y.
Proof.
  revert a; induction l as [|b l IH]; intros a; cbn [fold_left].
  - split; [now left|]. intros y [->|[]]; lia.
  - destruct (IH (N.min a b)) as [H1 H2]. split.
    + destruct H1 as [H1|H1]; [|now right; right].
      rewrite <- H1. destruct (N.min_spec a b) as [[_ ->]|[_ ->]]; [now left|now right; left].
    + pose proof (H2 _ (or_introl eq_refl)) as K.
      intros y [->|[->|Hy]]; [lia|lia|]. apply H2. now right.
Qed.
Lemma fold_max l a : In (fold_left N.max l a) (a :: l) /\ forall y, In y (a :: l) -> y <= fold_left N.max l a.
Proof.
  revert a; induction l as [|b l IH]; intros a; cbn [fold_left].
  - split; [now left|]. intros y [->|[]]; lia.
  - destruct (IH (N.max a b)) as [H1 H2]. split.
    + destruct H1 as [H1|H1]; [|now right; right].
      rewrite <- H1. destruct (N.max_spec a b) as [[_ ->]|[_ ->]]; [now right; left|now left].
    + pose proof (H2 _ (or_introl eq_refl)) as K.
      intros y [->|[->|Hy]]; [lia|lia|]. apply H2. now right.
Qed.
Lemma list_min_spec l x : list_min l = Some x <-> In x l /\ forall y, In y l -> x <= y.
Proof.
  destruct l as [|a l]; cbn [list_min]; [split; [discriminate|intros [[] _]]|].
  destruct (fold_min l a) as [H1 H2]. split; [intros H; injection H as <-; auto|].
  intros [K1 K2]. apply H2 in K1. apply K2 in H1. f_equal. lia.
Qed.
Lemma list_max_spec l x : list_max l = Some x <-> In x l /\ forall y, In y l -> y <= x.
Proof.
  destruct l as [|a l]; cbn [list_max]; [split; [discriminate|intros [[] _]]|].
  destruct (fold_max l a) as [H1 H2]. split; [intros H; injection H as <-; auto|].
  intros [K1 K2]. apply H2 in K1. apply K2 in H1. f_equal. lia.
Qed.

Lemma zip_eq_spec l r max : r + len_N l <= max + 1 ->
  zip_eq l r max = true <-> forall i x, nth_error l i = Some x -> x = r + N.of_nat i.
Proof.
  revert r; induction l as [|y l IH]; intros r HL; cbn [zip_eq].
  - split; [intros _ [|i] x H; discriminate|reflexivity].
  - unfold len_N in *. cbn [List.length] in HL. replace (r <=? max) with true by lia.
    rewrite andb_true_iff, IH by lia. rewrite N.eqb_eq. split.
    + intros [-> H] [|i] x Hx; cbn in Hx; [injection Hx as <-; lia|]. apply H in Hx. lia.
    + intros H. split; [rewrite (H 0%nat y eq_refl); lia|].
      intros i x Hx. specialize (H (S i) x Hx). lia.
Qed.

(** The list of indexes is the numerals from [a] on. *)
Definition numerals_from (d : dim_element) (a : N) : Prop :=
  forall i, i < de_dim d -> exists s, index_text d i s /\ numeral (a + i) s.

Lemma forall2_nth {A B} (R : A -> B -> Prop) l l' :
  Forall2 R l l' <-> List.length l = List.length l' /\
    forall i a b, nth_error l i = Some a -> nth_error l' i = Some b -> R a b.
Proof.
  split.
  - induction 1 as [|a b l l' H _ [IH1 IH2]]; [split; [reflexivity|intros [|?] ? ? K; discriminate K]|].
    split; [cbn; now rewrite IH1|]. intros [|i] x y; cbn; [congruence|apply IH2].
  - revert l'; induction l as [|a l IH]; intros [|b l'] [HL H]; try discriminate; constructor.
    + apply (H 0%nat); reflexivity.
    + apply IH. split; [now injection HL|]. intros i; apply (H (S i)).
Qed.

Lemma numerals_loop d a : a + de_dim d <= pow32 ->
  numerals_from d a <->
  canonical_loop d (upto (de_dim d)) = Ok (Some (map (fun i => a + i) (upto (de_dim d)))).
Proof.
  intros Hb. rewrite canonical_loop_ok, forall2_nth, map_length. unfold numerals_from. split.
  - intros H. split; [reflexivity|]. intros i x y Hx Hy. rewrite nth_error_map, Hx in Hy. cbn in Hy.
    injection Hy as <-.
    assert (Hd : x < de_dim d) by (apply nth_error_In in Hx; now apply in_upto in Hx).
    destruct (H x Hd) as (s & Hs & Hn). apply index_at_text in Hs. rewrite Hs.
    apply numeral_to_string in Hn as ->. split; [reflexivity|lia].
  - intros [_ H] i Hi.
    assert (Hn : nth_error (upto (de_dim d)) (N.to_nat i) = Some i) by (rewrite upto_nth by lia; now rewrite N2Nat.id).
    destruct (H (N.to_nat i) i (a + i) Hn) as [K _]; [now rewrite nth_error_map, Hn|].
    exists (to_string (a + i)). split; [now apply index_at_text|apply to_string_numeral].
Qed.

Lemma upto_min_max a n : 1 <= n ->
  list_min (map (fun i => a + i) (upto n)) = Some a /\
  list_max (map (fun i => a + i) (upto n)) = Some (a + n - 1).
Proof.
  intros Hn. rewrite list_min_spec, list_max_spec. repeat split.
  - apply in_map_iff. exists 0. rewrite in_upto. lia.
  - intros y Hy. apply in_map_iff in Hy as (i & <- & _). lia.
  - apply in_map_iff. exists (n - 1). rewrite in_upto. lia.
  - intros y Hy. apply in_map_iff in Hy as (i & <- & Hi). rewrite in_upto in Hi. lia.
Qed.

Lemma indexes_as_range_spec m d a b : de_dim d < pow32 ->
  indexes_as_range m d = Ok (Some (a, b)) <->
  1 <= de_dim d /\ a <= b /\ b < pow32 /\ de_dim d = b - a + 1 /\ numerals_from d a.
Proof.
  intros Hd. split.
  - unfold indexes_as_range. intros H.
    apply bind_ok in H as (c & Hc & H). destruct c as [vs|]; [|discriminate].
    destruct (list_min vs) as [mn|] eqn:Hmin; [|discriminate].
    destruct (list_max vs) as [mx|] eqn:Hmax; [|discriminate].
    apply list_min_spec in Hmin as [In1 Le1]. apply list_max_spec in Hmax as [In2 Le2].
    assert (Hlt : mx < pow32).
    { apply canonical_loop_ok in Hc. clear -Hc In2.
      induction Hc as [|i v is vs [_ Hv] _ IH]; [destruct In2|]. destruct In2 as [->|In2]; auto. }
    assert (Hmm := Le1 _ In2).
    unfold sub32 in H. rewrite sub_w_ok in H by assumption. cbn [bind] in H.
    apply bind_ok in H as (n & Hn & H).
    destruct (N.eqb_spec n (de_dim d)) as [En|]; [|discriminate]. cbn [negb] in H.
    destruct (zip_eq vs mn mx) eqn:Z; [|discriminate]. injection H as <- <-.
    assert (Hlen : len_N vs = de_dim d).
    { apply canonical_loop_ok in Hc. apply forall2_nth in Hc as [Hc _]. rewrite upto_length in Hc. unfold len_N. lia. }
    assert (Hpos : 1 <= de_dim d) by (rewrite <- Hlen; destruct vs; [destruct In1|unfold len_N; cbn; lia]).
    assert (Hdim : de_dim d = mx - mn + 1).
    { unfold add32, add_w in Hn. destruct (N.ltb_spec (mx - mn + 1) pow32); [congruence|].
      destruct m; [discriminate|]. injection Hn as Hn.
      assert (mx - mn + 1 = pow32) by lia. rewrite H0 in Hn. rewrite N.mod_same in Hn by discriminate. lia. }
    rewrite zip_eq_spec in Z by (rewrite Hlen; lia).
    assert (Evs : vs = map (fun i => mn + i) (upto (de_dim d))).
    { apply list_ext.
      - rewrite map_length, upto_length. unfold len_N in Hlen. lia.
      - intros i x y Hx Hy. apply Z in Hx. rewrite nth_error_map in Hy.
        assert (i < List.length vs)%nat.
        { apply nth_error_Some. destruct (nth_error (upto (de_dim d)) i) eqn:E; [|discriminate].
          assert (i < List.length (upto (de_dim d)))%nat by (apply nth_error_Some; congruence).
          rewrite upto_length in H. apply nth_error_Some. unfold len_N in Hlen. lia. }
        rewrite upto_nth in Hy by (unfold len_N in Hlen; lia). cbn in Hy. congruence. }
    repeat split; try assumption. apply numerals_loop; [lia|]. now rewrite Hc, Evs.
  - intros (Hpos & Hab & Hb & Hdim & Hnum). unfold indexes_as_range.
    apply numerals_loop in Hnum; [|lia]. rewrite Hnum. cbn [bind].
    destruct (upto_min_max a (de_dim d) Hpos) as [-> ->].
    unfold sub32. rewrite sub_w_ok by lia. cbn [bind].
    unfold add32. rewrite add_w_ok by lia. cbn [bind].
    replace (a + de_dim d - 1 - a + 1) with (de_dim d) by lia. rewrite N.eqb_refl. cbn [negb].
    replace (zip_eq _ _ _) with true.
    + do 3 f_equal; lia.
    + symmetry. apply zip_eq_spec.
      * unfold len_N. rewrite map_length, upto_length. lia.
      * intros i x Hx. rewrite nth_error_map in Hx.
        destruct (nth_error (upto (de_dim d)) i) eqn:E; [|discriminate].
        assert (i < N.to_nat (de_dim d))%nat by (rewrite <- upto_length; apply nth_error_Some; congruence).
        rewrite upto_nth in E by assumption. injection E as <-. now injection Hx as <-.
Qed.

(** The only panic once there are enough indexes. *)
Lemma indexes_as_range_panic m d p : de_dim d < pow32 ->
  (forall i, i < de_dim d -> exists s, index_text d i s) ->
  indexes_as_range m d = Panic p <->
  m = Debug /\ p = Overflow /\
  (forall i, i < de_dim d -> exists s v, index_text d i s /\ numeral v s /\ v < pow32) /\
  (exists i, i < de_dim d /\ index_text d i (to_string 0)) /\
  (exists i, i < de_dim d /\ index_text d i (to_string u32_max)).
Proof.
  intros Hd Hidx.
  assert (Hidx' : forall i, In i (upto (de_dim d)) -> exists s, index_at d i = Ok s).
  { intros i Hi. apply in_upto in Hi. destruct (Hidx i Hi) as [s Hs]. exists s. now apply index_at_text. }
  unfold indexes_as_range.
  destruct (canonical_loop_total d _ Hidx') as [E|[vs E]]; rewrite E; cbn [bind].
  - split; [discriminate|]. intros (_ & _ & H & _).
    assert (K : exists vs, Forall2 (fun i v => index_at d i = Ok (to_string v) /\ v < pow32) (upto (de_dim d)) vs).
    { assert (H' : forall i, In i (upto (de_dim d)) -> exists s v, index_text d i s /\ numeral v s /\ v < pow32)
        by (intros i Hi; apply H; now apply in_upto).
      clear -H'. induction (upto (de_dim d)) as [|i l IH]; [exists []; constructor|].
      destruct IH as [vs F]; [intros j Hj; apply H'; now right|].
      destruct (H' i (or_introl eq_refl)) as (s & v & Hs & Hn & Hv).
      exists (v :: vs). constructor; [|assumption]. split; [|assumption].
      apply index_at_text. apply numeral_to_string in Hn. now subst. }
    destruct K as [vs K]. apply canonical_loop_ok in K. congruence.
  - assert (F := proj1 (canonical_loop_ok _ _ _) E).
    assert (Hmem : forall v, In v vs <-> exists i, i < de_dim d /\ index_text d i (to_string v)).
    { clear -F. intros v. assert (forall i, In i (upto (de_dim d)) <-> i < de_dim d) as U by apply in_upto.
      setoid_rewrite <- U. clear U.
      induction F as [|i w is vs [H1 _] _ IH]; [split; [intros []|intros (i & [] & _)]|].
      split.
      - intros [->|H]; [exists i; split; [now left|now apply index_at_text]|].
        apply IH in H as (j & Hj & K). exists j. split; [now right|assumption].
      - intros (j & [<-|Hj] & K); [left|right; apply IH; eauto].
        apply index_at_text in K. rewrite H1 in K. injection K as K. now apply to_string_inj in K. }
    assert (Hall : forall v, In v vs -> v < pow32).
    { clear -F. induction F as [|i w is vs [_ H] _ IH]; [intros ? []|]. intros v [->|K]; auto. }
    destruct (list_min vs) as [mn|] eqn:Hmin, (list_max vs) as [mx|] eqn:Hmax;
      [| destruct vs; discriminate | destruct vs; discriminate |].
    + apply list_min_spec in Hmin as [In1 Le1]. apply list_max_spec in Hmax as [In2 Le2].
      assert (Hmm := Le1 _ In2). assert (Hmx := Hall _ In2).
      unfold sub32. rewrite sub_w_ok by assumption. cbn [bind]. unfold add32, add_w.
      destruct (N.ltb_spec (mx - mn + 1) pow32) as [Hs|Hs].
      * cbn [bind]. split.
        -- destruct (negb _); [discriminate|]. destruct (zip_eq _ _ _); discriminate.
        -- intros (_ & _ & _ & H0 & Hmaxi). exfalso. apply Hmem, Le1 in H0. apply Hmem, Le2 in Hmaxi.
           unfold u32_max, pow32 in *. lia.
      * assert (mn = 0 /\ mx = u32_max) as [-> ->] by (unfold u32_max, pow32 in *; lia).
        destruct m; cbn [bind].
        -- split.
           ++ intros H. injection H as <-. split; [reflexivity|]. split; [reflexivity|].
              split; [|split; now apply Hmem].
              intros i Hi. destruct (Hidx i Hi) as [s Hs']. apply index_at_text in Hs' as Hs''.
              assert (G : exists v, index_at d i = Ok (to_string v) /\ v < pow32).
              { apply in_upto in Hi. clear -F Hi. induction F as [|j w is vs H _ IH]; [destruct Hi|].
                destruct Hi as [->|Hi]; eauto. }
              destruct G as (v & G1 & G2). rewrite Hs'' in G1. injection G1 as ->.
              exists (to_string v), v. auto using to_string_numeral.
           ++ intros (_ & -> & _). reflexivity.
        -- split; [destruct (negb _); [discriminate|]; destruct (zip_eq _ _ _); discriminate|].
           intros (? & _). discriminate.
    + split; [discriminate|]. intros (_ & _ & _ & H0 & _). destruct vs; [|discriminate].
      apply Hmem in H0. destruct H0.
Qed.

(** ** Writing and reading index lists *)
Lemma join_glue c l : join (String c "") l = glue c l.
Proof. induction l as [|s [|s' l] IH]; [reflexivity..|].
  change (glue c (s :: s' :: l)) with (s ++ String c (glue c (s' :: l)))%string. rewrite <- IH. reflexivity.
Qed.

Lemma glue_free c k l : k <> c -> Forall (free_of k) l -> free_of k (glue c l).
Proof.
  intros Hk F. induction F as [|s l Hs F IH]; [intros []|]. destruct l as [|s' l]; [assumption|].
  change (glue c (s :: s' :: l)) with (s ++ String c (glue c (s' :: l)))%string.
  rewrite free_of_app, free_of_cons. auto.
Qed.

(** The dimIndex text the encoder writes: svd-encoder/src/dimelement.rs:20-27. *)
Lemma join_parse l : l <> [] -> Forall (free_of ",") l -> Forall (free_of "-") l ->
  parse_indexes (join "," l) = Some l.
Proof.
  intros Hne Hc Hd. apply parse_indexes_spec. rewrite join_glue. apply il_list.
  - apply glue_free; [discriminate|assumption].
  - unfold cut. auto.
Qed.

Lemma range_parse m d l a b : de_dim d < pow32 -> de_index d = Some l -> len_N l = de_dim d ->
  indexes_as_range m d = Ok (Some (a, b)) ->
  parse_indexes (to_string a ++ "-" ++ to_string b)%string = Some l.
Proof.
  intros Hd Hl HL H. apply indexes_as_range_spec in H as (Hpos & Hab & Hb & Hdim & Hnum); [|assumption].
  assert (signed (digits_with (digit 10) 10) (to_string a) a) by (left; apply (to_string_numeral a)).
  assert (signed (digits_with (digit 10) 10) (to_string b) b) by (left; apply (to_string_numeral b)).
  apply parse_indexes_spec. eapply (il_numbers _ _ (to_string a) (to_string b) a b); try assumption; try reflexivity.
  - change (2 ^ 32) with pow32. lia.
  - unfold len_N in HL. lia.
  - intros i s Hs. destruct (Hnum (N.of_nat i)) as (s' & Ht & Hn).
    + rewrite <- HL. unfold len_N. assert (i < List.length l)%nat by (apply nth_error_Some; congruence). lia.
    + unfold index_text in Ht. rewrite Hl, Nat2N.id, Hs in Ht. now injection Ht as ->.
Qed.
