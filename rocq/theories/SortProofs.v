From Coq Require Import Permutation Sorting.Sorted.
From Verif Require Import Base BaseFacts Types Config Sort SpecSort.

(** ** Splitting by a property *)
Lemma split_by_filter {A} (P : A -> Prop) p l : (forall x, p x = true <-> P x) ->
  split_by P l (filter p l) (filter (fun x => negb (p x)) l).
Proof.
  intros H. induction l as [|x l IH]; cbn; [constructor|].
  destruct (p x) eqn:E; cbn; constructor; auto; rewrite <- H; congruence.
Qed.
Lemma split_by_inv {A} (P : A -> Prop) p l a b : (forall x, p x = true <-> P x) ->
  split_by P l a b -> a = filter p l /\ b = filter (fun x => negb (p x)) l.
Proof.
  intros H. induction 1 as [|x l a b Hx S [-> ->]|x l a b Hx S [-> ->]]; cbn; auto.
  - apply H in Hx. rewrite Hx. auto.
  - rewrite <- H in Hx. destruct (p x); [congruence|auto].
Qed.
Lemma split_by_perm {A} (P : A -> Prop) l a b : split_by P l a b -> Permutation l (a ++ b).
Proof.
  induction 1; cbn; auto. rewrite IHsplit_by. apply Permutation_middle.
Qed.

(** ** Keyed sorting *)
Section Keyed.
  Context {A K : Type} (leb : K -> K -> bool) (eqb : K -> K -> bool).
  Hypothesis total : forall a b, leb a b = false -> leb b a = true.
  Hypothesis trans : forall a b c, leb a b = true -> leb b c = true -> leb a c = true.
  Hypothesis antisym : forall a b, leb a b = true -> leb b a = true -> a = b.
  Hypothesis eqb_spec : forall a b, eqb a b = true <-> a = b.

  Definition kle (x y : K * A) : Prop := leb (fst x) (fst y) = true.

  Lemma insert_perm (x : K * A) l : Permutation (insert_key leb x l) (x :: l).
  Proof.
    induction l as [|y l IH]; cbn; [reflexivity|].
    destruct (leb _ _); [reflexivity|]. rewrite IH. apply perm_swap.
  Qed.
  Lemma sort_perm (l : list (K * A)) : Permutation (sort_keyed leb l) l.
  Proof. induction l as [|x l IH]; cbn; [reflexivity|]. now rewrite insert_perm, IH. Qed.

  Lemma insert_sorted (x : K * A) l : StronglySorted kle l -> StronglySorted kle (insert_key leb x l).
  Proof.
    induction 1 as [|y l S IH F]; cbn; [repeat constructor|].
    destruct (leb (fst x) (fst y)) eqn:E.
    - constructor; [now constructor|]. constructor; [exact E|].
      rewrite Forall_forall in *. intros z Z. eapply trans; [exact E|]. now apply F.
    - constructor; [exact IH|]. rewrite Forall_forall in *. intros z Z.
      apply (Permutation_in _ (insert_perm x l)) in Z as [<-|Z]; [now apply total|now apply F].
  Qed.
  Lemma sort_sorted (l : list (K * A)) : StronglySorted kle (sort_keyed leb l).
  Proof. induction l; cbn; [constructor|]. now apply insert_sorted. Qed.

  Lemma insert_filter k (x : K * A) l : StronglySorted kle l ->
    filter (fun y => eqb (fst y) k) (insert_key leb x l) = filter (fun y => eqb (fst y) k) (x :: l).
  Proof.
    intros S. induction S as [|y l S IH F]; [reflexivity|]. cbn [insert_key].
    destruct (leb (fst x) (fst y)) eqn:E; [reflexivity|].
    cbn [filter] in *. rewrite IH.
    destruct (eqb (fst y) k) eqn:Ey, (eqb (fst x) k) eqn:Ex; auto.
    apply eqb_spec in Ey, Ex. rewrite Ey, Ex in E. pose proof (total _ _ E). congruence.
  Qed.
  Lemma sort_filter k (l : list (K * A)) :
    filter (fun y => eqb (fst y) k) (sort_keyed leb l) = filter (fun y => eqb (fst y) k) l.
  Proof.
    induction l as [|x l IH]; [reflexivity|]. cbn [sort_keyed]. rewrite insert_filter by apply sort_sorted.
    cbn [filter]. now rewrite IH.
  Qed.

  Lemma sort_id (l : list (K * A)) : StronglySorted kle l -> sort_keyed leb l = l.
  Proof.
    induction 1 as [|x l S IH F]; [reflexivity|]. cbn [sort_keyed]. rewrite IH.
    destruct l as [|y l]; [reflexivity|]. cbn [insert_key]. inversion F; subst. unfold kle in *.
    now rewrite H1.
  Qed.

  (** Sorting by a key that is always computed. *)
  Variable key : A -> K.
  Definition tag (a : A) : K * A := (key a, a).
  Definition sorted (l : list A) : list A := map snd (sort_keyed leb (map tag l)).

  Lemma sort_tagged l : Forall (fun x => x = tag (snd x)) (sort_keyed leb (map tag l)).
  Proof.
    rewrite Forall_forall. intros x Hx. apply (Permutation_in _ (sort_perm _)) in Hx.
    apply in_map_iff in Hx as (a & <- & _). reflexivity.
  Qed.
  Lemma retag l : map tag (sorted l) = sort_keyed leb (map tag l).
  Proof.
    unfold sorted. rewrite map_map. pose proof (sort_tagged l) as F.
    induction F as [|x t E F IH]; [reflexivity|]. cbn [map]. now rewrite IH, <- E.
  Qed.

  Lemma sort_by_key_run f l : (forall a, In a l -> f a = Ok (key a)) ->
    sort_by_key leb f l = Ok (sorted l).
  Proof.
    intros H. unfold sort_by_key. destruct l as [|a [|b l]]; try reflexivity.
    rewrite (mapM_ext _ (fun a => Ok (tag a))) by (intros x Hx; now rewrite (H x Hx)).
    rewrite mapM_pure. reflexivity.
  Qed.

  Lemma sorted_perm l : Permutation l (sorted l).
  Proof.
    unfold sorted. rewrite (sort_perm (map tag l)). rewrite map_map. cbn. now rewrite map_id.
  Qed.
  Lemma sorted_sorted l : StronglySorted (fun a b => leb (key a) (key b) = true) (sorted l).
  Proof.
    pose proof (sort_sorted (map tag l)) as S. rewrite <- retag in S.
    remember (map tag (sorted l)) as t eqn:E. revert E. generalize (sorted l) as u.
    induction S as [|x t S IH F]; intros [|a u] E; try discriminate; constructor; injection E as -> ->.
    - now apply IH.
    - rewrite Forall_forall in *. intros b B. apply (F (tag b)). now apply in_map.
  Qed.
  Lemma filter_tag k l : filter (fun y => eqb (fst y) k) (map tag l) = map tag (filter (fun a => eqb (key a) k) l).
  Proof. induction l as [|a l IH]; [reflexivity|]. cbn. destruct (eqb _ _); cbn; now rewrite IH. Qed.
  Lemma sorted_filter k l : filter (fun a => eqb (key a) k) (sorted l) = filter (fun a => eqb (key a) k) l.
  Proof.
    pose proof (sort_filter k (map tag l)) as S. rewrite <- retag, !filter_tag in S.
    apply (f_equal (map snd)) in S. rewrite !map_map in S. cbn in S. now rewrite !map_id in S.
  Qed.
  Lemma sorted_id l : StronglySorted (fun a b => leb (key a) (key b) = true) l -> sorted l = l.
  Proof.
    intros S. unfold sorted. rewrite sort_id.
    - rewrite map_map. cbn. now rewrite map_id.
    - induction S as [|x l S IH F]; cbn; constructor; auto.
      rewrite Forall_forall in *. intros y Y. apply in_map_iff in Y as (a & <- & Y). now apply F.
  Qed.

  Lemma sorted_unique u v :
    Permutation u v ->
    StronglySorted (fun a b => leb (key a) (key b) = true) u ->
    StronglySorted (fun a b => leb (key a) (key b) = true) v ->
    (forall k, filter (fun a => eqb (key a) k) u = filter (fun a => eqb (key a) k) v) -> u = v.
  Proof.
    intros P S. revert v P. induction S as [|x u S IH F]; intros v P Sv Q.
    - apply Permutation_nil in P. now subst.
    - destruct v as [|y v]; [apply Permutation_sym, Permutation_nil in P; discriminate|].
      assert (E : key x = key y).
      { apply antisym.
        - assert (I : In y (x :: u)) by (apply (Permutation_in _ (Permutation_sym P)); now left).
          destruct I as [->|I]; [destruct (leb (key y) (key y)) eqn:L; auto; pose proof (total _ _ L); congruence|].
          rewrite Forall_forall in F. now apply F.
        - assert (I : In x (y :: v)) by (apply (Permutation_in _ P); now left).
          destruct I as [->|I]; [destruct (leb (key x) (key x)) eqn:L; auto; pose proof (total _ _ L); congruence|].
          inversion Sv as [|? ? ? Fv]; subst. rewrite Forall_forall in Fv. now apply Fv. }
      pose proof (Q (key x)) as H. cbn [filter] in H. rewrite <- E in H.
      assert (R : eqb (key x) (key x) = true) by now apply eqb_spec. rewrite R in H. injection H as -> _.
      f_equal. apply IH.
      + now apply Permutation_cons_inv in P.
      + now inversion Sv.
      + intros k. specialize (Q k). cbn [filter] in Q. destruct (eqb (key y) k); [now injection Q|exact Q].
  Qed.

  Lemma sorted_stable (le : A -> A -> Prop) l out :
    (forall a b, le a b <-> leb (key a) (key b) = true) ->
    out = sorted l <-> stable le key l out.
  Proof.
    intros L.
    assert (D : forall k x, eqb (key x) k = true <-> key x = k) by (intros; apply eqb_spec).
    assert (SS : forall t, StronglySorted le t <-> StronglySorted (fun a b => leb (key a) (key b) = true) t).
    { intros t. split; induction 1 as [|x t S IH F]; constructor; auto;
        (eapply Forall_impl; [|exact F]; intros; cbn in *; now apply L). }
    split.
    - intros ->. split; [apply sorted_perm|]. split; [apply SS, sorted_sorted|].
      intros k a b S. destruct (split_by_inv _ _ _ _ _ (D k) S) as [-> ->].
      eexists. rewrite <- sorted_filter. now apply split_by_filter.
    - intros (P & S & Q). apply sorted_unique.
      + rewrite <- P. apply sorted_perm.
      + now apply SS.
      + apply sorted_sorted.
      + intros k. rewrite sorted_filter.
        destruct (Q k _ _ (split_by_filter _ _ l (D k))) as [b' S'].
        now destruct (split_by_inv _ _ _ _ _ (D k) S') as [-> _].
  Qed.
End Keyed.

(** ** The three keys *)
Lemma N_total a b : N.leb a b = false -> N.leb b a = true.
Proof. rewrite N.leb_gt, N.leb_le. lia. Qed.
Lemma N_trans a b c : N.leb a b = true -> N.leb b c = true -> N.leb a c = true.
Proof. rewrite !N.leb_le. lia. Qed.
Lemma N_antisym a b : N.leb a b = true -> N.leb b a = true -> a = b.
Proof. rewrite !N.leb_le. lia. Qed.
Lemma Z_total a b : Z.leb a b = false -> Z.leb b a = true.
Proof. rewrite Z.leb_gt, Z.leb_le. lia. Qed.
Lemma Z_trans a b c : Z.leb a b = true -> Z.leb b c = true -> Z.leb a c = true.
Proof. rewrite !Z.leb_le. lia. Qed.
Lemma Z_antisym a b : Z.leb a b = true -> Z.leb b a = true -> a = b.
Proof. rewrite !Z.leb_le. lia. Qed.

Lemma string_leb_spec s t : String.leb s t = true <-> text_le s t.
Proof.
  unfold String.leb. revert t. induction s as [|c s IH]; intros [|d t]; cbn [String.compare].
  - split; constructor.
  - split; constructor.
  - split; [discriminate|inversion 1].
  - unfold Ascii.compare. destruct (N.compare_spec (N_of_ascii c) (N_of_ascii d)) as [E|E|E].
    + apply (f_equal ascii_of_N) in E. rewrite !ascii_N_embedding in E. subst d. rewrite IH. split.
      * now constructor.
      * inversion 1; subst; auto. lia.
    + split; [intros _; now constructor|reflexivity].
    + split; [discriminate|]. inversion 1; subst; lia.
Qed.
Lemma text_le_total s t : text_le s t \/ text_le t s.
Proof.
  revert t. induction s as [|c s IH]; intros [|d t]; try (left; apply tl_empty); try (right; apply tl_empty).
  destruct (N.lt_trichotomy (N_of_ascii c) (N_of_ascii d)) as [L|[E|L]].
  - left. now constructor.
  - apply (f_equal ascii_of_N) in E. rewrite !ascii_N_embedding in E. subst d.
    destruct (IH t) as [H|H]; [left|right]; now constructor.
  - right. now constructor.
Qed.
Lemma text_le_trans s t u : text_le s t -> text_le t u -> text_le s u.
Proof.
  intros H. revert u. induction H as [|c d s t L|c s t H IH]; intros u Hu.
  - constructor.
  - inversion Hu; subst; constructor; lia.
  - inversion Hu; subst; [now apply tl_less|]. apply tl_equal. auto.
Qed.
Lemma text_le_antisym s t : text_le s t -> text_le t s -> s = t.
Proof.
  induction 1 as [s|c d s t L|c s t H IH]; intros K.
  - inversion K; reflexivity.
  - inversion K; subst; lia.
  - inversion K; subst; [lia|]. f_equal. auto.
Qed.
Lemma str_total a b : String.leb a b = false -> String.leb b a = true.
Proof.
  intros E. apply string_leb_spec. destruct (text_le_total a b) as [L|L]; auto.
  apply string_leb_spec in L. congruence.
Qed.
Lemma str_trans a b c : String.leb a b = true -> String.leb b c = true -> String.leb a c = true.
Proof. rewrite !string_leb_spec. apply text_le_trans. Qed.
Lemma str_antisym a b : String.leb a b = true -> String.leb b a = true -> a = b.
Proof. rewrite !string_leb_spec. apply text_le_antisym. Qed.

(** ** Descending addresses *)
Definition reverse_key (n : N) : Z :=
  if Z.eqb (as_i32 n) (-2147483648) then (-2147483648)%Z else (- as_i32 n)%Z.
Lemma neg_i32_cases m n :
  neg_i32 m n = Ok (reverse_key n) \/
  (m = Debug /\ n mod 4294967296 = 2147483648 /\ neg_i32 m n = Panic Overflow).
Proof.
  unfold neg_i32, reverse_key. destruct (Z.eqb_spec (as_i32 n) (-2147483648)) as [E|E]; [|auto].
  destruct m; [|rewrite E; auto]. right. split; [auto|]. split; [|auto].
  unfold as_i32, pow32 in E. destruct (N.ltb_spec (n mod 4294967296) 2147483648); lia.
Qed.
Lemma neg_i32_panic n : neg_i32 Debug n = Panic Overflow <-> n mod 4294967296 = 2147483648.
Proof.
  unfold neg_i32, as_i32, pow32.
  set (r := n mod 4294967296).
  assert (r < 4294967296) by (apply N.mod_lt; lia).
  destruct (N.ltb_spec r 2147483648); match goal with |- context [Z.eqb ?a ?b] => destruct (Z.eqb_spec a b) end;
    split; try discriminate; try lia; reflexivity.
Qed.
Lemma reverse_key_small n : n < 2147483648 -> reverse_key n = (- Z.of_N n)%Z.
Proof.
  intros H. unfold reverse_key, as_i32, pow32. rewrite N.mod_small by lia.
  destruct (N.ltb_spec n 2147483648); [|lia]. destruct (Z.eqb_spec (Z.of_N n) (-2147483648)); lia.
Qed.

Section Items.
  Context {A : Type} (offset : A -> N) (name : A -> string).

  Definition run (s : option sorting) (l : list A) : list A :=
    match s with
    | None => l
    | Some ByOffset => sorted N.leb offset l
    | Some ByOffsetReversed => sorted Z.leb (fun a => reverse_key (offset a)) l
    | Some ByName => sorted String.leb name l
    end.

  Lemma run_perm s l : Permutation l (run s l).
  Proof. destruct s as [[]|]; cbn [run]; try apply sorted_perm. reflexivity. Qed.
  Lemma run_id s l : run s (run s l) = run s l.
  Proof.
    destruct s as [[]|]; cbn [run]; try reflexivity; apply sorted_id; apply sorted_sorted.
    - exact N_total. - exact N_trans. - exact Z_total. - exact Z_trans. - exact str_total. - exact str_trans.
  Qed.

  (** Sorting either runs or meets the address that cannot be negated. *)
  Lemma sort_items_cases m s l :
    sort_items m offset name s l = Ok (run s l) \/
    (m = Debug /\ s = Some ByOffsetReversed /\ (2 <= List.length l)%nat /\
     (exists a, In a l /\ offset a mod 4294967296 = 2147483648) /\
     sort_items m offset name s l = Panic Overflow).
  Proof.
    destruct s as [[]|]; cbn [sort_items run]; auto; try (left; now apply sort_by_key_run).
    destruct l as [|a [|b l]]; try (left; reflexivity).
    set (t := a :: b :: l).
    assert (C : (forall x, In x t -> neg_i32 m (offset x) = Ok (reverse_key (offset x))) \/
      (m = Debug /\ (exists a, In a t /\ offset a mod 4294967296 = 2147483648) /\
       mapM (fun a => let* k := neg_i32 m (offset a) in Ok (k, a)) t = Panic Overflow)).
    { clearbody t. clear. induction t as [|x t IH]; [left; intros x []|].
      destruct (neg_i32_cases m (offset x)) as [E|(-> & E & P)].
      - destruct IH as [IH|(-> & (y & Hy & Ey) & P)].
        + left. intros y [<-|Hy]; auto.
        + right. split; [auto|]. split; [exists y; cbn; auto|]. cbn [mapM]. rewrite E. cbn [bind]. now rewrite P.
      - right. split; [auto|]. split; [exists x; cbn; auto|]. cbn [mapM]. now rewrite P. }
    destruct C as [C|(-> & C & P)].
    - left. now apply sort_by_key_run.
    - right. conjs; auto; [cbn; lia|]. unfold sort_by_key, t in *. now rewrite P.
  Qed.
  Lemma sort_items_panic s l : s = Some ByOffsetReversed -> (2 <= List.length l)%nat ->
    (exists a, In a l /\ offset a mod 4294967296 = 2147483648) ->
    sort_items Debug offset name s l = Panic Overflow.
  Proof.
    intros -> L (a & Ha & E).
    destruct (sort_items_cases Debug (Some ByOffsetReversed) l) as [R|(_ & _ & _ & _ & P)]; [|exact P].
    exfalso. cbn [sort_items] in R. unfold sort_by_key in R.
    destruct l as [|x [|y l]]; try (cbn in L; lia).
    match type of R with context [mapM ?f ?l] => destruct (mapM f l) as [kl| |] eqn:M end; try discriminate.
    apply mapM_ok in M. destruct (Forall2_in_l _ _ _ M a Ha) as (b & _ & B).
    apply neg_i32_panic in E. rewrite E in B. discriminate.
  Qed.

  Lemma sorted_key_ext {K L} (leb : K -> K -> bool) (leb' : L -> L -> bool) (k : A -> K) (k' : A -> L) l :
    (forall a b, In a l -> In b l -> leb (k a) (k b) = leb' (k' a) (k' b)) -> sorted leb k l = sorted leb' k' l.
  Proof.
    unfold sorted. intros H.
    assert (G : forall u v, incl (map snd u) l -> (forall x, In x u -> x = tag k (snd x)) ->
       (forall x, In x v -> x = tag k' (snd x)) -> map snd u = map snd v -> forall a, In a l ->
       map snd (insert_key leb (tag k a) u) = map snd (insert_key leb' (tag k' a) v)).
    { intros u. induction u as [|x u IH]; intros [|y v] I U V E a Ha; try discriminate; [reflexivity|].
      cbn [map] in E. injection E as E1 E2. cbn [insert_key].
      rewrite (U x (or_introl eq_refl)), (V y (or_introl eq_refl)). cbn [tag fst snd]. rewrite <- E1.
      rewrite H by (auto; apply I; now left).
      destruct (leb' _ _); cbn [map tag snd]; [now rewrite E2|]. f_equal. apply IH; auto.
      - intros z Hz. apply I. now right.
      - intros z Hz. apply U. now right.
      - intros z Hz. apply V. now right. }
    assert (T : forall t, incl t l ->
       map snd (sort_keyed leb (map (tag k) t)) = map snd (sort_keyed leb' (map (tag k') t))).
    { induction t as [|a t IH]; intros I; [reflexivity|]. cbn [map sort_keyed]. apply G.
      - intros z Hz. apply in_map_iff in Hz as (p & <- & Hp). apply (Permutation_in _ (sort_perm _ _)) in Hp.
        apply in_map_iff in Hp as (b & <- & Hb). apply I. now right.
      - intros x Hx. pose proof (sort_tagged leb k t) as F. rewrite Forall_forall in F. now apply F.
      - intros x Hx. pose proof (sort_tagged leb' k' t) as F. rewrite Forall_forall in F. now apply F.
      - apply IH. intros z Hz. apply I. now right.
      - apply I. now left. }
    apply T. apply incl_refl.
  Qed.

  Lemma run_in_order s l out :
    (s = Some ByOffsetReversed -> forall a, In a l -> offset a < 2147483648) ->
    out = run s l <-> in_order offset name s l out.
  Proof.
    intros H. destruct s as [[]|]; cbn [run in_order].
    - apply (sorted_stable N.leb N.eqb N_total N_trans N_antisym N.eqb_eq). intros. now rewrite N.leb_le.
    - rewrite (sorted_key_ext Z.leb (fun a b => N.leb b a) _ offset).
      + apply (sorted_stable (fun a b => N.leb b a) N.eqb).
        * intros a b. apply N_total.
        * intros a b c X Y. now apply (N_trans c b a).
        * intros a b X Y. now apply N_antisym.
        * exact N.eqb_eq.
        * intros. now rewrite N.leb_le.
      + intros a b Ha Hb. rewrite !reverse_key_small by auto.
        destruct (N.leb_spec (offset b) (offset a)); [apply Z.leb_le|apply Z.leb_gt]; lia.
    - apply (sorted_stable String.leb String.eqb str_total str_trans str_antisym String.eqb_eq).
      intros. now rewrite string_leb_spec.
    - reflexivity.
  Qed.

  (** ** Derived elements last *)
  Variable derived : A -> bool.
  Definition runs (s : derivable_sorting) (l : list A) : list A :=
    match s with
    | Unchanged s => run s l
    | DeriveLast s => run s (filter (fun a => negb (derived a)) l) ++ run s (filter derived l)
    end.
  Definition key_of (s : derivable_sorting) := match s with Unchanged s | DeriveLast s => s end.

  Lemma filters_perm l : Permutation l (filter (fun a => negb (derived a)) l ++ filter derived l).
  Proof.
    induction l as [|x l IH]; [reflexivity|]. cbn. destruct (derived x); cbn; [|now constructor].
    rewrite <- Permutation_middle. now constructor.
  Qed.
  Lemma runs_perm s l : Permutation l (runs s l).
  Proof.
    destruct s as [s|s]; cbn [runs]; [apply run_perm|]. rewrite (filters_perm l) at 1.
    apply Permutation_app; apply run_perm.
  Qed.
  Lemma filter_all {B} (p : B -> bool) l : (forall x, In x l -> p x = true) -> filter p l = l.
  Proof.
    induction l as [|x l IH]; intros H; [reflexivity|]. cbn. rewrite (H x) by now left.
    f_equal. apply IH. intros; apply H; now right.
  Qed.
  Lemma filter_none {B} (p : B -> bool) l : (forall x, In x l -> p x = false) -> filter p l = [].
  Proof.
    induction l as [|x l IH]; intros H; [reflexivity|]. cbn. rewrite (H x) by now left.
    apply IH. intros; apply H; now right.
  Qed.
  Lemma runs_id s l : runs s (runs s l) = runs s l.
  Proof.
    destruct s as [s|s]; cbn [runs]; [apply run_id|].
    set (a := run s (filter (fun x => negb (derived x)) l)). set (b := run s (filter derived l)).
    assert (Ha : forall x, In x a -> derived x = false).
    { intros x Hx. apply (Permutation_in _ (Permutation_sym (run_perm _ _))) in Hx.
      apply filter_In in Hx as [_ Hx]. now destruct (derived x). }
    assert (Hb : forall x, In x b -> derived x = true).
    { intros x Hx. apply (Permutation_in _ (Permutation_sym (run_perm _ _))) in Hx.
      now apply filter_In in Hx as [_ Hx]. }
    rewrite !filter_app.
    rewrite (filter_all (fun x => negb (derived x)) a) by (intros x Hx; now rewrite (Ha x Hx)).
    rewrite (filter_none (fun x => negb (derived x)) b) by (intros x Hx; now rewrite (Hb x Hx)).
    rewrite (filter_none derived a Ha), (filter_all derived b Hb), app_nil_r. cbn [app].
    unfold a, b. now rewrite !run_id.
  Qed.

  Lemma sort_derivable_cases m s l :
    sort_derivable m offset name derived s l = Ok (runs s l) \/
    (m = Debug /\ key_of s = Some ByOffsetReversed /\
     (exists a, In a l /\ offset a mod 4294967296 = 2147483648) /\
     sort_derivable m offset name derived s l = Panic Overflow).
  Proof.
    destruct s as [s|s]; cbn [sort_derivable runs key_of].
    - destruct (sort_items_cases m s l) as [E|(-> & -> & _ & H & P)]; auto.
    - destruct (sort_items_cases m s (filter (fun a => negb (derived a)) l)) as [E|(-> & -> & _ & (a & Ha & H) & P)].
      + rewrite E. cbn [bind].
        destruct (sort_items_cases m s (filter derived l)) as [E'|(-> & -> & _ & (a & Ha & H) & P)].
        * left. now rewrite E'.
        * right. rewrite P. apply filter_In in Ha as [Ha _]. conjs; eauto.
      + right. rewrite P. apply filter_In in Ha as [Ha _]. conjs; eauto.
  Qed.
  Lemma runs_order (D : A -> Prop) s l out : (forall a, derived a = true <-> D a) ->
    (key_of s = Some ByOffsetReversed -> forall a, In a l -> offset a < 2147483648) ->
    out = runs s l <-> derivable_order offset name D s l out.
  Proof.
    intros HD H. destruct s as [s|s]; cbn [runs derivable_order key_of] in *; [now apply run_in_order|].
    assert (H1 : s = Some ByOffsetReversed -> forall a, In a (filter (fun a => negb (derived a)) l) -> offset a < 2147483648).
    { intros E a Ha. apply H; auto. now apply filter_In in Ha. }
    assert (H2 : s = Some ByOffsetReversed -> forall a, In a (filter derived l) -> offset a < 2147483648).
    { intros E a Ha. apply H; auto. now apply filter_In in Ha. }
    split.
    - intros ->. exists (filter derived l), (filter (fun a => negb (derived a)) l). eexists _, _. conjs; eauto.
      + now apply split_by_filter.
      + now apply run_in_order.
      + now apply run_in_order.
    - intros (d & c & d' & c' & S & C & E & ->). destruct (split_by_inv _ _ _ _ _ HD S) as [-> ->].
      apply run_in_order in C, E; auto. now subst.
  Qed.
End Items.

Lemma is_some_neq {A} (o : option A) : is_some o = true <-> o <> None.
Proof. destruct o; cbn; split; congruence. Qed.
Lemma field_derived_spec f : field_derived f = true <->
  (f_derived_from (info f) <> None \/ exists e, In e (f_enumerated_values (info f)) /\ evs_derived_from e <> None).
Proof.
  unfold field_derived. rewrite Bool.orb_true_iff, is_some_neq, existsb_exists.
  split; (intros [H|(e & He & H)]; [now left|right; exists e; split; auto; now apply is_some_neq]).
Qed.
Lemma reversed_key s : key_of s = Some ByOffsetReversed <-> reversed s.
Proof.
  unfold reversed. destruct s as [s|s]; cbn [key_of]; split; try (intros ->; auto);
    intros [E|E]; congruence.
Qed.

Lemma entry_derived_spec rc : is_some (rc_derived_from rc) = true <-> entry_derived rc.
Proof. rewrite is_some_neq. now destruct rc. Qed.
Lemma is_register_spec rc : is_register rc = true <-> exists r, rc = RCRegister r.
Proof. destruct rc; cbn; split; try discriminate; eauto. intros [r E]. discriminate. Qed.

Definition rc_runs (s : rc_sorting) (l : list register_cluster) : list register_cluster :=
  let go := runs rc_address_offset rc_name (fun rc => is_some (rc_derived_from rc)) in
  match s with
  | RcUnchanged s => go s l
  | RegistersFirst s => go s (filter is_register l) ++ go s (filter (fun rc => negb (is_register rc)) l)
  | ClustersFirst s => go s (filter (fun rc => negb (is_register rc)) l) ++ go s (filter is_register l)
  end.
Lemma sort_registers_cases m s l :
  sort_registers m s l = Ok (rc_runs s l) \/
  (m = Debug /\ rc_reversed s /\ (exists a, In a l /\ entry_offset a mod 4294967296 = 2147483648) /\
   sort_registers m s l = Panic Overflow).
Proof.
  assert (EO : forall a, rc_address_offset a = entry_offset a) by now intros [].
  assert (C : forall d t, sort_rcs m d t = Ok (runs rc_address_offset rc_name (fun rc => is_some (rc_derived_from rc)) d t) \/
    (m = Debug /\ reversed d /\ (exists a, In a t /\ entry_offset a mod 4294967296 = 2147483648) /\
     sort_rcs m d t = Panic Overflow)).
  { intros d t. destruct (sort_derivable_cases rc_address_offset rc_name (fun rc => is_some (rc_derived_from rc)) m d t)
      as [E|(E & K & (a & Ha & X) & P)]; auto.
    right. conjs; auto; [now apply reversed_key|]. exists a. now rewrite <- EO. }
  assert (G : forall d b, rc_sort m l d b = Ok (if b then
      runs rc_address_offset rc_name (fun rc => is_some (rc_derived_from rc)) d (filter is_register l) ++
      runs rc_address_offset rc_name (fun rc => is_some (rc_derived_from rc)) d (filter (fun rc => negb (is_register rc)) l)
     else runs rc_address_offset rc_name (fun rc => is_some (rc_derived_from rc)) d (filter (fun rc => negb (is_register rc)) l) ++
      runs rc_address_offset rc_name (fun rc => is_some (rc_derived_from rc)) d (filter is_register l)) \/
    (m = Debug /\ reversed d /\ (exists a, In a l /\ entry_offset a mod 4294967296 = 2147483648) /\
     rc_sort m l d b = Panic Overflow)).
  { intros d b. unfold rc_sort.
    destruct (C d (filter is_register l)) as [E|(-> & K & (a & Ha & X) & P)].
    - rewrite E. cbn [bind].
      destruct (C d (filter (fun rc => negb (is_register rc)) l)) as [E'|(-> & K & (a & Ha & X) & P)].
      + left. now rewrite E'.
      + right. rewrite P. apply filter_In in Ha as [Ha _]. conjs; eauto.
    - right. rewrite P. apply filter_In in Ha as [Ha _]. conjs; eauto. }
  destruct s as [d|d|d]; cbn [sort_registers rc_runs].
  - destruct (C d l) as [E|(E & K & H & P)]; auto. right. conjs; auto. exists d. auto.
  - destruct (G d true) as [E|(E & K & H & P)]; auto. right. conjs; auto. exists d. auto.
  - destruct (G d false) as [E|(E & K & H & P)]; auto. right. conjs; auto. exists d. auto.
Qed.
Lemma rc_runs_perm s l : Permutation l (rc_runs s l).
Proof.
  destruct s as [d|d|d]; cbn [rc_runs].
  - apply runs_perm.
  - rewrite (filters_perm is_register l) at 1. rewrite Permutation_app_comm. apply Permutation_app; apply runs_perm.
  - rewrite (filters_perm is_register l) at 1. apply Permutation_app; apply runs_perm.
Qed.
Lemma rc_runs_id s l : rc_runs s (rc_runs s l) = rc_runs s l.
Proof.
  destruct s as [d|d|d]; cbn [rc_runs]; [apply runs_id| |];
  set (go := runs rc_address_offset rc_name (fun rc => is_some (rc_derived_from rc)) d);
  set (a := go (filter is_register l)); set (b := go (filter (fun rc => negb (is_register rc)) l));
  (assert (Ha : forall x, In x a -> is_register x = true) by
    (intros x Hx; apply (Permutation_in _ (Permutation_sym (runs_perm _ _ _ _ _))) in Hx;
     now apply filter_In in Hx));
  (assert (Hb : forall x, In x b -> is_register x = false) by
    (intros x Hx; apply (Permutation_in _ (Permutation_sym (runs_perm _ _ _ _ _))) in Hx;
     apply filter_In in Hx as [_ Hx]; now destruct (is_register x)));
  rewrite !filter_app;
  rewrite (filter_all is_register a Ha), (filter_none is_register b Hb);
  rewrite (filter_none (fun x => negb (is_register x)) a) by (intros x Hx; now rewrite (Ha x Hx));
  rewrite (filter_all (fun x => negb (is_register x)) b) by (intros x Hx; now rewrite (Hb x Hx));
  rewrite ?app_nil_r; cbn [app]; unfold a, b, go; now rewrite !runs_id.
Qed.
Lemma rc_runs_order s l out :
  (rc_reversed s -> forall a, In a l -> entry_offset a < 2147483648) ->
  out = rc_runs s l <-> registers_order s l out.
Proof.
  assert (EO : forall a, rc_address_offset a = entry_offset a) by now intros [].
  assert (EN : forall a, rc_name a = entry_name a) by now intros [].
  assert (G : forall d t o, (reversed d -> forall a, In a t -> entry_offset a < 2147483648) ->
     o = runs rc_address_offset rc_name (fun rc => is_some (rc_derived_from rc)) d t <-> entry_order d t o).
  { intros d t o H. unfold entry_order.
    apply (runs_order entry_offset entry_name (fun rc => is_some (rc_derived_from rc)) entry_derived d t o).
    - exact entry_derived_spec.
    - intros K. apply H. now apply reversed_key. }
  intros H. unfold registers_order. destruct s as [d|d|d]; cbn [rc_runs].
  - apply G. intros R. apply H. exists d. auto.
  - assert (H1 : reversed d -> forall a, In a (filter is_register l) -> entry_offset a < 2147483648).
    { intros R a Ha. apply H; [exists d; auto|]. now apply filter_In in Ha. }
    assert (H2 : reversed d -> forall a, In a (filter (fun rc => negb (is_register rc)) l) -> entry_offset a < 2147483648).
    { intros R a Ha. apply H; [exists d; auto|]. now apply filter_In in Ha. }
    split.
    + intros ->. eexists _, _, _, _. conjs; [apply split_by_filter; exact is_register_spec| | |reflexivity]; now apply G.
    + intros (r & c & r' & c' & S & R & C & ->). destruct (split_by_inv _ _ _ _ _ is_register_spec S) as [-> ->].
      apply G in R, C; auto. now subst.
  - assert (H1 : reversed d -> forall a, In a (filter is_register l) -> entry_offset a < 2147483648).
    { intros R a Ha. apply H; [exists d; auto|]. now apply filter_In in Ha. }
    assert (H2 : reversed d -> forall a, In a (filter (fun rc => negb (is_register rc)) l) -> entry_offset a < 2147483648).
    { intros R a Ha. apply H; [exists d; auto|]. now apply filter_In in Ha. }
    split.
    + intros ->. eexists _, _, _, _. conjs; [apply split_by_filter; exact is_register_spec| | |reflexivity]; now apply G.
    + intros (r & c & r' & c' & S & R & C & ->). destruct (split_by_inv _ _ _ _ _ is_register_spec S) as [-> ->].
      apply G in R, C; auto. now subst.
Qed.
