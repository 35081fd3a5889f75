(** C67-C69. *)
From Verif Require Import Base BaseFacts Types Arrays TreeFacts SpecWalk WalkProofs Mutate SpecMutate.

(** ** Lists *)
Lemma nth_set_same {A} i (x y : A) l : nth_error l i = Some y -> nth_error (set_nth i x l) i = Some x.
Proof. revert i. induction l as [|a l IH]; intros [|i] H; try discriminate; [reflexivity|]. now apply IH. Qed.
Lemma nth_set_other {A} i j (x : A) l : i <> j -> nth_error (set_nth i x l) j = nth_error l j.
Proof. revert i j. induction l as [|a l IH]; intros [|i] [|j] N; try reflexivity; [now destruct N|]. cbn. apply IH. congruence. Qed.
Lemma set_set {A} i (x y : A) l : set_nth i y (set_nth i x l) = set_nth i y l.
Proof. revert i. induction l as [|a l IH]; intros [|i]; try reflexivity. cbn. now rewrite IH. Qed.
Lemma set_nth_app {A} (b : list A) y a x : set_nth (List.length b) x (b ++ y :: a) = b ++ x :: a.
Proof. induction b as [|c b IH]; [reflexivity|]. cbn. now rewrite IH. Qed.
Lemma nth_app {A} (b : list A) y a : nth_error (b ++ y :: a) (List.length b) = Some y.
Proof. induction b as [|c b IH]; [reflexivity|exact IH]. Qed.
Lemma places_from_head {A} (f : A -> bool) l i j rest : places_from i f l = j :: rest <->
  exists b y a, l = b ++ y :: a /\ f y = true /\ (forall z, In z b -> f z = false) /\ j = (i + List.length b)%nat /\
    rest = places_from (S j) f a.
Proof.
  revert i. induction l as [|c l IH]; intros i; cbn [places_from].
  - split; [discriminate|]. intros (b & y & a & E & _). destruct b; discriminate.
  - destruct (f c) eqn:F.
    + split.
      * intros E. injection E as <- <-. exists [], c, l. cbn. rewrite Nat.add_0_r. conjs; auto. intros z [].
      * intros (b & y & a & E & Y & Z & -> & ->). destruct b as [|b0 b]; cbn in E; injection E as -> ->.
        -- cbn. now rewrite Nat.add_0_r.
        -- rewrite Z in F by now left. discriminate.
    + rewrite IH. split.
      * intros (b & y & a & -> & Y & Z & -> & ->). exists (c :: b), y, a. cbn. rewrite Nat.add_succ_r. conjs; auto.
        intros z [<-|I]; auto.
      * intros (b & y & a & E & Y & Z & -> & ->). destruct b as [|b0 b]; cbn in E; injection E as -> ->; [congruence|].
        exists b, y, a. cbn [List.length]. rewrite Nat.add_succ_r. conjs; auto. intros z I. apply Z. now right.
Qed.
Lemma assign_iff {A} (f : A -> bool) (P : A -> Prop) l x l' : (forall a, f a = true <-> P a) ->
  (assign f l x = Some l' <-> first_replaced P l x l').
Proof.
  intros FP. unfold assign, first_replaced. destruct (places f l) as [|i rest] eqn:E.
  - split; [discriminate|]. intros (b & y & a & -> & Y & Z & _). unfold places in E.
    assert (X : places_from 0 f (b ++ y :: a) = (0 + List.length b)%nat :: places_from (S (0 + List.length b)) f a).
    { apply places_from_head. exists b, y, a. conjs; auto; [now apply FP|]. intros z I. specialize (Z z I). rewrite <- FP in Z. now destruct (f z). }
    congruence.
  - apply places_from_head in E as (b & y & a & -> & Y & Z & -> & _). cbn [Nat.add]. rewrite set_nth_app. split.
    + intros H. injection H as <-. exists b, y, a. conjs; auto; [now apply FP|]. intros z I. rewrite <- FP. rewrite (Z z I). discriminate.
    + intros (b' & y' & a' & E & Y' & Z' & ->). f_equal. revert E Z'. clear - FP Y Z Y'. revert b'.
      induction b as [|c b IH]; intros [|c' b'] E Z'; cbn in E |- *; injection E as -> E.
      * now subst.
      * exfalso. apply (Z' c'); [now left|now apply FP].
      * apply FP in Y'. rewrite (Z y') in Y' by now left. discriminate.
      * f_equal. apply IH; auto; intros z I; [apply Z|apply Z']; now right.
Qed.
Lemma assign_none {A} (f : A -> bool) l x : assign f l x = None <-> forall y, In y l -> f y = false.
Proof.
  unfold assign. destruct (places f l) as [|i rest] eqn:E.
  - split; [|reflexivity]. intros _. unfold places in E. revert E. generalize 0%nat. induction l as [|c l IH]; intros n E y I; [destruct I|].
    cbn in E. destruct (f c) eqn:F; [discriminate|]. destruct I as [<-|I]; [exact F|]. eapply IH; eauto.
  - split; [discriminate|]. intros H. apply places_from_head in E as (b & y & a & -> & Y & _). rewrite H in Y; [discriminate|]. apply in_or_app. right. now left.
Qed.
Lemma named_bool {A} (name : A -> string) n a : seqb (name a) n = true <-> name a = n.
Proof. apply seqb_eq. Qed.
Lemma assign_named {A} (name : A -> string) n l x l' :
  assign (fun a => seqb (name a) n) l x = Some l' <-> first_replaced (fun a => name a = n) l x l'.
Proof. apply assign_iff. intros a. apply named_bool. Qed.
(** Reading after writing. *)
Lemma read_written {A} (name : A -> string) n l x l' : assign (fun a => seqb (name a) n) l x = Some l' -> name x = n ->
  find_first (fun a => seqb (name a) n) l' = Some x /\
  forall n', n' <> n -> find_first (fun a => seqb (name a) n') l' = find_first (fun a => seqb (name a) n') l.
Proof.
  intros H N. apply assign_named in H as (b & y & a & -> & Y & Z & ->). split.
  - apply named_iff. exists b, a. conjs; auto.
  - intros n' D. clear Z. induction b as [|c b IH]; cbn [app find_first].
    + rewrite (proj2 (String.eqb_neq _ _) : name x <> n' -> seqb (name x) n' = false) by congruence.
      rewrite (proj2 (String.eqb_neq _ _) : name y <> n' -> seqb (name y) n' = false) by congruence. reflexivity.
    + now rewrite IH.
Qed.

(** ** Children of one kind *)
Lemma find_first_ext {A} (f g : A -> bool) l : (forall a, f a = g a) -> find_first f l = find_first g l.
Proof. intros E. induction l as [|a l IH]; [reflexivity|]. cbn. now rewrite E, IH. Qed.
Lemma find_places {A} (f g : A -> bool) l : (forall a, g a = true -> f a = true) ->
  forall i pre, List.length pre = i ->
  find_first (fun j => match nth_error (pre ++ l) j with Some a => g a | None => false end) (places_from i f l) =
  match places_from i g l with j :: _ => Some j | [] => None end.
Proof.
  intros FG. induction l as [|c l IH]; intros i pre L; [reflexivity|]. cbn [places_from].
  assert (X : find_first (fun j => match nth_error (pre ++ c :: l) j with Some a => g a | None => false end) (places_from (S i) f l) =
    match places_from (S i) g l with j :: _ => Some j | [] => None end).
  { specialize (IH (S i) (pre ++ [c])). rewrite <- app_assoc in IH. apply IH. rewrite app_length. cbn. lia. }
  destruct (f c) eqn:F.
  - cbn [find_first]. subst i. rewrite nth_app. destruct (g c) eqn:G; [reflexivity|exact X].
  - destruct (g c) eqn:G; [rewrite (FG c G) in F; discriminate|exact X].
Qed.
Definition reg_named (n : string) (rc : register_cluster) : bool := match rc with RCRegister r => seqb (r_name (info r)) n | _ => false end.
Definition clu_named (n : string) (rc : register_cluster) : bool := match rc with RCCluster c => seqb (c_name (info c)) n | _ => false end.
Lemma assign_register_eq cs n x : assign_register cs n x = assign (reg_named n) cs (RCRegister x).
Proof.
  unfold assign_register, assign, registers_mut, places.
  pose proof (find_places is_register (reg_named n) cs ltac:(intros []; [reflexivity|discriminate]) 0 [] eq_refl) as E. cbn [app] in E.
  rewrite <- (find_first_ext (fun i => match nth_error cs i with Some a => reg_named n a | None => false end)) .
  - rewrite E. now destruct (places_from 0 (reg_named n) cs).
  - intros i. destruct (nth_error cs i) as [[]|]; reflexivity.
Qed.
Lemma assign_cluster_eq cs n x : assign_cluster cs n x = assign (clu_named n) cs (RCCluster x).
Proof.
  unfold assign_cluster, assign, clusters_mut, places.
  pose proof (find_places (fun rc => negb (is_register rc)) (clu_named n) cs ltac:(intros []; [discriminate|reflexivity]) 0 [] eq_refl) as E. cbn [app] in E.
  rewrite <- (find_first_ext (fun i => match nth_error cs i with Some a => clu_named n a | None => false end)) .
  - rewrite E. now destruct (places_from 0 (clu_named n) cs).
  - intros i. destruct (nth_error cs i) as [[]|]; reflexivity.
Qed.
Lemma assign_register_iff cs n x l : assign_register cs n x = Some l <->
  first_replaced (fun rc => exists r, rc = RCRegister r /\ r_name (info r) = n) cs (RCRegister x) l.
Proof.
  rewrite assign_register_eq. apply assign_iff. intros [r|c]; cbn.
  - rewrite (named_bool (fun r : register => r_name (info r))). split; [eauto|]. intros (r' & E & N). now injection E as <-.
  - split; [discriminate|]. intros (r' & E & _). discriminate.
Qed.
Lemma assign_cluster_iff cs n x l : assign_cluster cs n x = Some l <->
  first_replaced (fun rc => exists c, rc = RCCluster c /\ c_name (info c) = n) cs (RCCluster x) l.
Proof.
  rewrite assign_cluster_eq. apply assign_iff. intros [r|c]; cbn.
  - split; [discriminate|]. intros (r' & E & _). discriminate.
  - rewrite (named_bool (fun r : cluster => c_name (info r))). split; [eauto|]. intros (r' & E & N). now injection E as <-.
Qed.
Lemma assign_register_none cs n x : assign_register cs n x = None <-> get_register cs n = None.
Proof.
  rewrite assign_register_eq, assign_none, get_register_none. split.
  - intros H r I N. specialize (H _ I). cbn in H. rewrite N in H. unfold seqb in H. rewrite String.eqb_refl in H. discriminate.
  - intros H [r|c] I; [|reflexivity]. cbn. apply String.eqb_neq. now apply H.
Qed.
Lemma assign_cluster_none cs n x : assign_cluster cs n x = None <-> get_cluster cs n = None.
Proof.
  rewrite assign_cluster_eq, assign_none, get_cluster_none. split.
  - intros H r I N. specialize (H _ I). cbn in H. rewrite N in H. unfold seqb in H. rewrite String.eqb_refl in H. discriminate.
  - intros H [r|c] I; [reflexivity|]. cbn. apply String.eqb_neq. now apply H.
Qed.
Lemma replaced_kept {A} (name : A -> string) n n' b y a x : name y = n -> name x = n -> n' <> n ->
  find_first (fun a => seqb (name a) n') (b ++ x :: a) = find_first (fun a => seqb (name a) n') (b ++ y :: a).
Proof.
  intros Y X D. induction b as [|c b IH]; cbn [app find_first]; [|now rewrite IH].
  unfold seqb. rewrite (proj2 (String.eqb_neq (name x) n')), (proj2 (String.eqb_neq (name y) n')) by congruence. reflexivity.
Qed.
Lemma register_read_written cs n x l : assign_register cs n x = Some l -> r_name (info x) = n ->
  get_register l n = Some x /\ (forall n', n' <> n -> get_register l n' = get_register cs n') /\
  (forall n', get_cluster l n' = get_cluster cs n').
Proof.
  intros H N. apply assign_register_iff in H as (b & y & a & -> & (r & -> & Y) & Z & ->). conjs.
  - apply get_register_iff. exists b, a. conjs; auto. intros r' I E. apply (Z _ I). eauto.
  - intros n' D. unfold get_register. rewrite !rc_registers_app. cbn [rc_registers].
    now apply (replaced_kept (fun r : register => r_name (info r)) n).
  - intros n'. unfold get_cluster. rewrite !rc_clusters_app. reflexivity.
Qed.
Lemma cluster_read_written cs n x l : assign_cluster cs n x = Some l -> c_name (info x) = n ->
  get_cluster l n = Some x /\ (forall n', n' <> n -> get_cluster l n' = get_cluster cs n') /\
  (forall n', get_register l n' = get_register cs n').
Proof.
  intros H N. apply assign_cluster_iff in H as (b & y & a & -> & (r & -> & Y) & Z & ->). conjs.
  - apply get_cluster_iff. exists b, a. conjs; auto. intros r' I E. apply (Z _ I). eauto.
  - intros n' D. unfold get_cluster. rewrite !rc_clusters_app. cbn [rc_clusters].
    now apply (replaced_kept (fun r : cluster => c_name (info r)) n).
  - intros n'. unfold get_register. rewrite !rc_registers_app. reflexivity.
Qed.
Lemma each_place_ok {A} (f : A -> bool) (h : A -> A) l pre :
  each_place h (pre ++ l) (places_from (List.length pre) f l) = pre ++ map (fun a => if f a then h a else a) l.
Proof.
  unfold each_place. revert pre. induction l as [|c l IH]; intros pre; [reflexivity|]. cbn [places_from map].
  assert (E : forall d, pre ++ d :: l = (pre ++ [d]) ++ l) by (intros d; now rewrite <- app_assoc).
  destruct (f c).
  - cbn [fold_left]. rewrite nth_app, set_nth_app, E.
    replace (S (List.length pre)) with (List.length (pre ++ [h c])) by (rewrite app_length; cbn; lia).
    now rewrite IH, <- app_assoc.
  - rewrite E. replace (S (List.length pre)) with (List.length (pre ++ [c])) by (rewrite app_length; cbn; lia).
    now rewrite IH, <- app_assoc.
Qed.
Lemma each_register_ok g cs :
  each_register g cs = map (fun rc => match rc with RCRegister r => RCRegister (g r) | RCCluster c => RCCluster c end) cs.
Proof.
  unfold each_register, registers_mut, places. rewrite (each_place_ok is_register _ cs []). cbn [app]. apply map_ext. now intros [].
Qed.
Lemma each_cluster_ok g cs :
  each_cluster g cs = map (fun rc => match rc with RCRegister r => RCRegister r | RCCluster c => RCCluster (g c) end) cs.
Proof.
  unfold each_cluster, clusters_mut, places. rewrite (each_place_ok (fun rc => negb (is_register rc)) _ cs []). cbn [app]. apply map_ext. now intros [].
Qed.

(** ** The tree *)
Fixpoint kids (cs : list register_cluster) (p : place) : option (list register_cluster) :=
  match p with
  | [] => Some cs
  | i :: p' => match nth_error cs i with Some (RCCluster c) => kids (c_children (info c)) p' | _ => None end
  end.
Fixpoint put_kids (cs : list register_cluster) (p : place) (l : list register_cluster) : list register_cluster :=
  match p with
  | [] => l
  | i :: p' =>
      match nth_error cs i with
      | Some (RCCluster c) => set_nth i (RCCluster (set_children c (put_kids (c_children (info c)) p' l))) cs
      | _ => cs
      end
  end.
Lemma set_children_kids c l : c_children (info (set_children c l)) = l.
Proof. now destruct c. Qed.
Lemma set_children_twice c l l' : set_children (set_children c l) l' = set_children c l'.
Proof. now destruct c. Qed.
Lemma look_kids cs p i : look cs (p ++ [i]) = match kids cs p with Some l => nth_error l i | None => None end.
Proof.
  revert cs. induction p as [|j p IH]; intros cs; [reflexivity|]. cbn [app kids].
  destruct p as [|k p]; cbn [app] in IH |- *; cbn [look]; destruct (nth_error cs j) as [[r|c]|]; auto.
  exact (IH _).
Qed.
Lemma store_kids cs p i x l : kids cs p = Some l -> store cs (p ++ [i]) x = put_kids cs p (set_nth i x l).
Proof.
  revert cs. induction p as [|j p IH]; intros cs K; cbn [app kids put_kids] in *; [now injection K as ->|].
  destruct (nth_error cs j) as [[r|c]|] eqn:J; try discriminate.
  specialize (IH _ K). rewrite <- IH. destruct p as [|k p]; cbn [app store]; rewrite J; reflexivity.
Qed.
Lemma kids_put cs p l l' : kids cs p = Some l -> kids (put_kids cs p l') p = Some l'.
Proof.
  revert cs. induction p as [|j p IH]; intros cs K; cbn [kids put_kids] in *; [reflexivity|].
  destruct (nth_error cs j) as [[r|c]|] eqn:J; try discriminate.
  rewrite (nth_set_same _ _ _ _ J), set_children_kids. now apply IH.
Qed.
Lemma put_put cs p l l1 l2 : kids cs p = Some l -> put_kids (put_kids cs p l1) p l2 = put_kids cs p l2.
Proof.
  revert cs. induction p as [|j p IH]; intros cs K; cbn [kids put_kids] in *; [reflexivity|].
  destruct (nth_error cs j) as [[r|c]|] eqn:J; try discriminate.
  rewrite (nth_set_same _ _ _ _ J), set_set, set_children_twice, set_children_kids. now rewrite (IH _ K).
Qed.
Lemma kids_deeper cs p i l c : kids cs p = Some l -> nth_error l i = Some (RCCluster c) -> kids cs (p ++ [i]) = Some (c_children (info c)).
Proof.
  revert cs. induction p as [|j p IH]; intros cs K N; cbn [app kids] in *.
  - injection K as ->. now rewrite N.
  - destruct (nth_error cs j) as [[r|c']|] eqn:J; try discriminate. now apply IH.
Qed.
Lemma put_deeper cs p i l c l' : kids cs p = Some l -> nth_error l i = Some (RCCluster c) ->
  put_kids cs (p ++ [i]) l' = store cs (p ++ [i]) (RCCluster (set_children c l')).
Proof.
  intros K N. rewrite (store_kids _ _ _ _ _ K). revert cs K. induction p as [|j p IH]; intros cs K; cbn [app kids put_kids] in *.
  - injection K as ->. now rewrite N.
  - destruct (nth_error cs j) as [[r|c']|] eqn:J; try discriminate. now rewrite (IH _ K).
Qed.
Lemma same_set c c' : same_but_children c c' -> c' = set_children c (c_children (info c')).
Proof.
  destruct c as [a|a d], c' as [b|b e]; cbn; intros H; [|destruct H|destruct H|destruct H as [H <-]];
    destruct H as (?&?&?&?&?&?&?); destruct a, b; cbn in *; subst; reflexivity.
Qed.
Lemma set_same c l : same_but_children c (set_children c l).
Proof. destruct c; cbn; unfold info_but_children; cbn; conjs; reflexivity. Qed.

Section Run.
  Context {T : Type} (g : T -> register -> T * register).
  (** The loop, step by step. *)
  Inductive run : T -> list register_cluster -> list place -> T -> list register_cluster -> Prop :=
    | run_nil s cs : run s cs [] s cs
    | run_register s cs p rem r s1 r' s2 out : look cs p = Some (RCRegister r) -> g s r = (s1, r') ->
        run s1 (store cs p (RCRegister r')) rem s2 out -> run s cs (p :: rem) s2 out
    | run_cluster s cs p rem c s2 out : look cs p = Some (RCCluster c) ->
        run s cs (below p (c_children (info c)) ++ rem) s2 out -> run s cs (p :: rem) s2 out.

  Definition kid_places (p : place) (i n : nat) : list place := map (fun i => p ++ [i]) (seq i n).

  Lemma run_updated s l s1 l' : updated g s l s1 l' -> forall cs p pre rem s2 out,
    kids cs p = Some (pre ++ l) -> run s1 (put_kids cs p (pre ++ l')) rem s2 out ->
    run s cs (kid_places p (List.length pre) (List.length l) ++ rem) s2 out.
  Proof.
    induction 1 as [s|s r s1 r' l s2 l' G U IH|s c s1 c' l s2 l' SB U1 IH1 U2 IH2]; intros cs p pre rem s3 out K R.
    - cbn. revert R. rewrite !app_nil_r in *.
      assert (E : put_kids cs p pre = cs).
      { clear - K. revert cs K. induction p as [|j p IH]; intros cs K; cbn in *; [now injection K|].
        destruct (nth_error cs j) as [[r|c]|] eqn:J; try discriminate. rewrite (IH _ K).
        assert (E : RCCluster (set_children c (c_children (info c))) = RCCluster c) by (destruct c as [[]|[] ?]; reflexivity).
        rewrite E. clear - J. revert j J. induction cs as [|a cs IH]; intros [|j] J; try discriminate; cbn in *.
        - now injection J as ->.
        - now rewrite (IH _ J). }
      now rewrite E.
    - cbn. unfold kid_places. cbn [map seq app].
      assert (N : look cs (p ++ [List.length pre]) = Some (RCRegister r)) by (rewrite look_kids, K; apply nth_app).
      eapply run_register; [exact N|exact G|]. rewrite (store_kids _ _ _ _ _ K), set_nth_app.
      assert (EA : forall (x : register_cluster) m, pre ++ x :: m = (pre ++ [x]) ++ m) by (intros; now rewrite <- app_assoc).
      replace (S (List.length pre)) with (List.length (pre ++ [RCRegister r'])) by (rewrite app_length; cbn; lia).
      apply IH.
      + rewrite EA. now apply (kids_put _ _ _ _ K).
      + rewrite (put_put _ _ _ _ _ K), <- EA. exact R.
    - unfold kid_places. cbn [List.length map seq app].
      assert (N : look cs (p ++ [List.length pre]) = Some (RCCluster c)) by (rewrite look_kids, K; apply nth_app).
      eapply run_cluster; [exact N|].
      change (below (p ++ [List.length pre]) (c_children (info c))) with
        (kid_places (p ++ [List.length pre]) (List.length (@nil register_cluster)) (List.length (c_children (info c)))).
      apply IH1.
      + cbn [app]. apply (kids_deeper _ _ _ _ _ K). apply nth_app.
      + cbn [app]. rewrite (put_deeper _ _ _ _ _ _ K (nth_app _ _ _)), <- (same_set _ _ SB).
        rewrite (store_kids _ _ _ _ _ K), set_nth_app.
        assert (EA : forall (x : register_cluster) m, pre ++ x :: m = (pre ++ [x]) ++ m) by (intros; now rewrite <- app_assoc).
        replace (S (List.length pre)) with (List.length (pre ++ [RCCluster c'])) by (rewrite app_length; cbn; lia).
        apply IH2.
        * rewrite EA. now apply (kids_put _ _ _ _ K).
        * rewrite (put_put _ _ _ _ _ K), <- EA. exact R.
  Qed.

  Lemma next_more f cs rem x : all_next_mut f cs rem = Some x -> forall f', (f <= f')%nat -> all_next_mut f' cs rem = Some x.
  Proof.
    revert rem. induction f as [|f IH]; intros rem H [|f'] L; try discriminate; [lia|]. cbn in *.
    destruct rem as [|p rem]; [exact H|]. destruct (look cs p) as [[r|c]|]; auto. apply IH; [exact H|lia].
  Qed.
  Lemma run_loop s cs rem s' out : run s cs rem s' out ->
    exists n, forall k f, (n <= k)%nat -> (n <= f)%nat -> all_assign k f g s cs rem = Some (s', out).
  Proof.
    induction 1 as [s cs|s cs p rem r s1 r' s2 out L G R [n IH]|s cs p rem c s2 out L R [n IH]].
    - exists 1%nat. intros [|k] [|f] K F; try lia. reflexivity.
    - exists (S n). intros [|k] [|f] K F; try lia. cbn. rewrite L. rewrite L, G. apply IH; lia.
    - exists (S n). intros [|k] [|f] K F; try lia.
      assert (A : all_assign (S k) f g s cs (below p (c_children (info c)) ++ rem) = Some (s2, out)) by (apply IH; lia).
      cbn [all_assign all_next_mut] in A |- *. rewrite L, push_rev.
      destruct (all_next_mut f cs (below p (c_children (info c)) ++ rem)) as [[o rem']|] eqn:X; [|discriminate].
      destruct o as [q|]; [|exact A]. destruct (look cs q) as [[r|c']|] eqn:Q; try discriminate.
      destruct (g s r) as [s1 r'] eqn:G.
      assert (B : all_assign (S k) (S f) g s cs (below p (c_children (info c)) ++ rem) = Some (s2, out)) by (apply IH; lia).
      cbn [all_assign] in B. rewrite (next_more _ _ _ _ X (S f)) in B by lia. now rewrite Q, G in B.
  Qed.
  Lemma updated_total_list l : Forall (fun rc => forall s, exists s' rc', updated g s [rc] s' [rc']) l ->
    forall s, exists s' l', updated g s l s' l'.
  Proof.
    induction 1 as [|rc l H _ IH]; intros s; [eexists _, _; constructor|].
    destruct (H s) as (s1 & rc' & U). destruct (IH s1) as (s2 & l' & U').
    inversion U as [|? r ? r' ? ? ? G N|? c ? c' ? ? ? SB UC N]; subst; inversion N; subst.
    - exists s2, (RCRegister r' :: l'). econstructor; eauto.
    - exists s2, (RCCluster c' :: l'). econstructor; eauto.
  Qed.
  Lemma updated_total l : forall s, exists s' l', updated g s l s' l'.
  Proof.
    apply updated_total_list. apply rc_list_ind.
    - intros r s. destruct (g s r) as [s1 r'] eqn:G. exists s1, (RCRegister r'). econstructor; [exact G|constructor].
    - intros c F s. destruct (updated_total_list _ F s) as (s1 & l' & U). exists s1, (RCCluster (set_children c l')).
      eapply up_cluster; [apply set_same|rewrite set_children_kids; exact U|constructor].
  Qed.
  Lemma updated_det s l s1 l1 : updated g s l s1 l1 -> forall s2 l2, updated g s l s2 l2 -> s1 = s2 /\ l1 = l2.
  Proof.
    induction 1 as [s|s r s1 r' l s2 l' G U IH|s c s1 c' l s2 l' SB U1 IH1 U2 IH2]; intros sx lx X; inversion X; subst.
    - auto.
    - match goal with H : g s r = _ |- _ => rewrite G in H; injection H as <- <- end.
      match goal with H : updated g s1 l _ _ |- _ => apply IH in H as [-> ->] end. auto.
    - match goal with H : updated g s (c_children (info c)) _ _ |- _ => apply IH1 in H as [-> E] end.
      match goal with H : updated g _ l _ _ |- _ => apply IH2 in H as [-> ->] end.
      match goal with H : same_but_children c ?c2 |- _ => rewrite (same_set _ _ SB), (same_set c c2), E by assumption end. auto.
  Qed.
  Lemma all_registers_mut_ok s cs : exists s' out, updated g s cs s' out /\
    exists n, forall k f, (n <= k)%nat -> (n <= f)%nat -> all_assign k f g s cs (all_registers_mut cs) = Some (s', out).
  Proof.
    destruct (updated_total cs s) as (s' & out & U). exists s', out. split; [exact U|]. apply run_loop.
    unfold all_registers_mut. rewrite push_rev.
    change (below [] cs) with (kid_places [] (List.length (@nil register_cluster)) (List.length cs)).
    apply (run_updated _ _ _ _ U cs [] [] [] s' out); [reflexivity|]. constructor.
  Qed.
  (** More steps do not change an answer. *)
  Lemma loop_more k f s cs rem x : all_assign k f g s cs rem = Some x ->
    forall k' f', (k <= k')%nat -> (f <= f')%nat -> all_assign k' f' g s cs rem = Some x.
  Proof.
    revert s cs rem. induction k as [|k IH]; intros s cs rem H [|k'] f' K F; try discriminate; [lia|]. cbn [all_assign] in *.
    destruct (all_next_mut f cs rem) as [[o rem']|] eqn:X; [|discriminate]. rewrite (next_more _ _ _ _ X f' F).
    destruct o as [q|]; [|exact H]. destruct (look cs q) as [[r|c']|] eqn:Q; try discriminate.
    destruct (g s r) as [s1 r']. apply IH; [exact H|lia|exact F].
  Qed.
  Lemma all_registers_mut_iff s cs s' out : updated g s cs s' out <->
    exists k f, all_assign k f g s cs (all_registers_mut cs) = Some (s', out).
  Proof.
    destruct (all_registers_mut_ok s cs) as (s1 & o1 & U & n & H). split.
    - intros U'. destruct (updated_det _ _ _ _ U _ _ U') as [-> ->]. exists n, n. apply H; lia.
    - intros (k & f & E). specialize (H (k + n)%nat (f + n)%nat ltac:(lia) ltac:(lia)).
      rewrite (loop_more _ _ _ _ _ _ E) in H by lia. injection H as -> ->. exact U.
  Qed.
End Run.

(** What the client sees, and what is there afterwards. *)
Lemma updated_visits h s cs s' cs' : updated (fun (seen : list register) r => (seen ++ [r], h seen r)) s cs s' cs' ->
  exists out, visits cs out /\ s' = s ++ out.
Proof.
  induction 1 as [s|s r s1 r' l s2 l' G U (o & V & ->)|s c s1 c' l s2 l' SB U1 (o1 & V1 & ->) U2 (o2 & V2 & ->)].
  - exists []. split; [constructor|now rewrite app_nil_r].
  - injection G as <- <-. exists (r :: o). split; [now constructor|now rewrite <- app_assoc].
  - exists (o1 ++ o2). split; [now constructor|now rewrite app_assoc].
Qed.
Lemma updated_map {S} (h : register -> register) (s : S) cs s' cs' : updated (fun s r => (s, h r)) s cs s' cs' ->
  s' = s /\ forall out, visits cs out -> visits cs' (map h out).
Proof.
  induction 1 as [s|s r s1 r' l s2 l' G U (-> & V)|s c s1 c' l s2 l' SB U1 (-> & V1) U2 (-> & V2)].
  - split; [reflexivity|]. intros out X. inversion X. constructor.
  - injection G as <- <-. split; [reflexivity|]. intros out X. inversion X; subst. cbn. constructor. auto.
  - split; [reflexivity|]. intros out X. inversion X; subst. rewrite map_app. constructor; auto.
Qed.
Lemma updated_same {S} (s : S) cs : updated (fun s r => (s, r)) s cs s cs.
Proof.
  destruct (updated_total (fun (s : S) r => (s, r)) cs s) as (s' & out & U).
  enough (s' = s /\ out = cs) as [-> ->] by exact U. clear - U. remember (fun (s : S) r => (s, r)) as g eqn:Hg. induction U; subst.
  - auto.
  - destruct IHU as [-> ->]. injection H as <- <-. auto.
  - destruct IHU1 as [-> E]. destruct IHU2 as [-> ->]. split; [reflexivity|].
    rewrite (same_set _ _ H), E. f_equal. f_equal. destruct c as [[]|[] ?]; reflexivity.
Qed.

(** ** Enumerations by usage *)
Lemma usage_bool u e : match evs_usage_of e with Some v => usage_eqb v u | None => false end = true <-> used_as u e.
Proof.
  unfold evs_usage_of, used_as, is_some, opt_default. destruct (evs_derived_from e), (evs_usage e) as [[]|], u; cbn; intuition congruence.
Qed.
Lemma by_usage_eq f u : get_enumerated_values f u =
  match f_enumerated_values f with
  | [_] | [_; _] => find_first (fun e => match evs_usage_of e with Some v => usage_eqb v u | None => false end) (f_enumerated_values f)
  | _ => None
  end.
Proof. reflexivity. Qed.
Lemma by_usage f u e : get_enumerated_values f u = Some e <->
  one_or_two (f_enumerated_values f) /\ exists before after, f_enumerated_values f = before ++ e :: after /\ used_as u e /\
    forall y, In y before -> ~ used_as u y.
Proof.
  rewrite by_usage_eq. set (t := fun e => _ : bool).
  assert (T : find_first t (f_enumerated_values f) = Some e <-> exists before after, f_enumerated_values f = before ++ e :: after /\ used_as u e /\
    forall y, In y before -> ~ used_as u y).
  { rewrite find_first_iff. split; intros (b & a & E & H & N); exists b, a; conjs; auto.
    - now apply usage_bool.
    - intros y I U. apply usage_bool in U. specialize (N y I). unfold t in N. congruence.
    - now apply usage_bool.
    - intros y I. destruct (t y) eqn:Y; [|reflexivity]. apply usage_bool in Y. now apply N in I. }
  rewrite <- T. clear T. unfold one_or_two. destruct (f_enumerated_values f) as [|e1 [|e2 [|e3 l]]]; cbn [List.length]; split; try tauto; try discriminate; lia.
Qed.
Lemma assign_by_usage f u x l : assign_enumerated_values f u x = Some l <->
  one_or_two (f_enumerated_values f) /\ first_replaced (used_as u) (f_enumerated_values f) x l.
Proof.
  unfold assign_enumerated_values. rewrite <- (assign_iff _ _ _ _ _ (usage_bool u)). unfold one_or_two.
  destruct (f_enumerated_values f) as [|e1 [|e2 [|e3 m]]]; cbn [List.length]; split; try tauto; try discriminate; lia.
Qed.
Lemma default_value_iff e v : default_value e = Some v <->
  exists before after, evs_values e = before ++ v :: after /\ ev_is_default v = Some true /\
    forall y, In y before -> ev_is_default y <> Some true.
Proof.
  unfold default_value. rewrite find_first_iff. split; intros (b & a & E & H & N); exists b, a; conjs; auto.
  - now destruct (ev_is_default v) as [[]|].
  - intros y I. specialize (N y I). now destruct (ev_is_default y) as [[]|].
  - now rewrite H.
  - intros y I. specialize (N y I). now destruct (ev_is_default y) as [[]|].
Qed.

Lemma assign_field_iff r n x l : assign_field r n x = Some l <->
  exists fs, r_fields r = Some fs /\ first_replaced (fun f : field => f_name (info f) = n) fs x l.
Proof.
  unfold assign_field. destruct (r_fields r) as [fs|].
  - rewrite (assign_named (fun f : field => f_name (info f))). split; [eauto|]. intros (fs' & E & H). now injection E as <-.
  - split; [discriminate|]. intros (fs' & E & _). discriminate.
Qed.
Lemma named_none_iff {A} (name : A -> string) n l x :
  assign (fun a => seqb (name a) n) l x = None <-> find_first (fun a => seqb (name a) n) l = None.
Proof. now rewrite assign_none, find_first_none. Qed.
Lemma assign_field_none r n x : assign_field r n x = None <-> get_field r n = None.
Proof.
  unfold assign_field, get_field, r_fields_iter. destruct (r_fields r) as [fs|]; [apply (named_none_iff (fun f : field => f_name (info f)))|].
  cbn. tauto.
Qed.
Lemma field_read_written r r' l n x : assign_field r n x = Some l -> r_fields r' = Some l -> f_name (info x) = n ->
  get_field r' n = Some x /\ forall n', n' <> n -> get_field r' n' = get_field r n'.
Proof.
  unfold assign_field, get_field, r_fields_iter. destruct (r_fields r) as [fs|]; [|discriminate]. intros H E N. rewrite E. cbn.
  exact (read_written (fun f : field => f_name (info f)) n fs x l H N).
Qed.
Lemma walk_seen h k f cs seen out :
  all_assign k f (fun (seen : list register) r => (seen ++ [r], h seen r)) [] cs (all_registers_mut cs) = Some (seen, out) ->
  visits cs seen.
Proof.
  intros H. assert (U := proj2 (all_registers_mut_iff _ _ _ _ _) (ex_intro _ k (ex_intro _ f H))).
  apply updated_visits in U as (o & V & ->). exact V.
Qed.
Lemma walk_written (h : register -> register) k f cs out was :
  all_assign k f (fun (s : unit) r => (s, h r)) tt cs (all_registers_mut cs) = Some (tt, out) ->
  visits cs was -> visits out (map h was).
Proof.
  intros H. assert (U := proj2 (all_registers_mut_iff _ _ _ _ _) (ex_intro _ k (ex_intro _ f H))).
  apply (updated_map h) in U as [_ V]. apply V.
Qed.
Lemma one_usage f u v e : get_enumerated_values f u = Some e -> get_enumerated_values f v = Some e -> u = v.
Proof.
  rewrite !by_usage. intros (_ & b & a & _ & (_ & U) & _) (_ & b' & a' & _ & (_ & V) & _).
  destruct U as [U|[U ->]], V as [V|[V ->]]; congruence.
Qed.
