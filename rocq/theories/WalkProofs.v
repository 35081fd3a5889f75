From Verif Require Import BaseFacts Types Arrays TreeFacts SpecWalk.
From Coq Require Import Lia.

Lemma push_rev {A} (l rem : list A) : fold_left push (rev l) rem = l ++ rem.
Proof.
  revert rem. induction l as [|a l IH]; intros; cbn; auto.
  rewrite fold_left_app. cbn. unfold push. f_equal. apply IH.
Qed.
Lemma init_eq l : all_registers_init l = l.
Proof. unfold all_registers_init. rewrite push_rev. apply app_nil_r. Qed.

Lemma visits_app l1 l2 a b : visits l1 a -> visits l2 b -> visits (l1 ++ l2) (a ++ b).
Proof.
  induction 1; intros; cbn; auto.
  - constructor; auto.
  - rewrite <- app_assoc. constructor; auto.
Qed.
Lemma visits_det l a : visits l a -> forall b, visits l b -> a = b.
Proof.
  induction 1; intros x Hx; inversion Hx; subst; auto.
  - f_equal; auto.
  - f_equal; auto.
Qed.
Lemma visits_total l : exists out, visits l out.
Proof.
  assert (forall rc, exists out, visits [rc] out) as H.
  { apply (rc_tree_ind (fun rc => exists out, visits [rc] out)).
    - intros r. exists [r]. repeat constructor.
    - intros c H. assert (exists a, visits (c_children (info c)) a) as [a Ha].
      { induction (c_children (info c)) as [|x xs IH]; [exists []; constructor|].
        inversion H as [|? ? [ox Hx] H']; subst. destruct (IH H') as [os Hs].
        exists (ox ++ os). apply (visits_app [x] xs); auto. }
      exists (a ++ []). constructor; auto. constructor. }
  induction l as [|x xs [os Hs]]; [exists []; constructor|].
  destruct (H x) as [ox Hx]. exists (ox ++ os). apply (visits_app [x] xs); auto.
Qed.

(** Number of nodes: bounds the steps. *)
Inductive steps : list register_cluster -> nat -> Prop :=
  | s_nil : steps [] 1
  | s_register r l n : steps l n -> steps (RCRegister r :: l) (S n)
  | s_cluster c l n : steps (c_children (info c) ++ l) n -> steps (RCCluster c :: l) (S n).
Lemma steps_app l1 l2 out : visits l1 out -> (exists n, steps l2 n) -> exists n, steps (l1 ++ l2) n.
Proof.
  intros H; revert l2. induction H; intros l2 [n Hn]; cbn; eauto.
  - destruct (IHvisits l2) as [k Hk]; eauto. exists (S k). constructor; auto.
  - destruct (IHvisits2 l2) as [k Hk]; eauto.
    destruct (IHvisits1 (l ++ l2)) as [k' Hk']; eauto.
    exists (S k'). constructor. exact Hk'.
Qed.
Lemma steps_total l : exists n, steps l n.
Proof.
  destruct (visits_total l) as [o Ho]. destruct (steps_app l [] o Ho) as [n Hn].
  exists 1%nat; constructor. rewrite app_nil_r in Hn. eauto.
Qed.
Lemma visits_split l1 l2 out : visits (l1 ++ l2) out -> exists a b, visits l1 a /\ visits l2 b /\ out = a ++ b.
Proof.
  revert out. induction l1 as [|x l1 IH]; intros out H; cbn in *.
  - exists [], out. repeat split; auto. constructor.
  - inversion H; subst.
    + destruct (IH _ H3) as (a & b & ? & ? & ->). exists (r :: a), b. repeat split; auto. constructor; auto.
    + destruct (IH _ H4) as (a' & b' & ? & ? & ->). exists (a ++ a'), b'.
      repeat split; auto. constructor; auto. now rewrite app_assoc.
Qed.
Lemma drain_ok l n : steps l n -> forall out, visits l out ->
  forall k f, (n <= k)%nat -> (n <= f)%nat -> all_drain k f l = Some out.
Proof.
  induction 1; intros out V k f Hk Hf.
  - inversion V; subst. destruct k; [lia|]. destruct f; [lia|]. reflexivity.
  - inversion V; subst. destruct k; [lia|]. destruct f; [lia|]. cbn [all_drain all_next].
    rewrite (IHsteps _ H3); auto; lia.
  - inversion V; subst. destruct k as [|k]; [lia|]. destruct f as [|f]; [lia|].
    assert (V' : visits (c_children (info c) ++ l) (a ++ b)) by (apply visits_app; auto).
    specialize (IHsteps _ V').
    assert (E : all_next (S f) (RCCluster c :: l) = all_next f (c_children (info c) ++ l)).
    { cbn [all_next]. now rewrite push_rev. }
    (* more fuel gives the same next *)
    assert (M : forall f1 l1 r, all_next f1 l1 = Some r -> forall f2, (f1 <= f2)%nat -> all_next f2 l1 = Some r).
    { clear. induction f1; intros l1 r Hr f2 Hf; [discriminate|]. destruct f2; [lia|].
      cbn in *. destruct l1 as [|[r1|c1] l1]; auto. apply IHf1; auto. lia. }
    specialize (IHsteps (S k) f ltac:(lia) ltac:(lia)) as D.
    cbn [all_drain] in *. rewrite E.
    destruct (all_next f (c_children (info c) ++ l)) as [[[r|] rem]|]; auto.
    + destruct (all_drain k f rem) as [q|] eqn:Q; [|discriminate].
      assert (MD : forall k f1 l1 q, all_drain k f1 l1 = Some q -> forall f2, (f1 <= f2)%nat -> all_drain k f2 l1 = Some q).
      { clear - M. induction k; intros f1 l1 q Hq f2 Hf; [discriminate|]. cbn in *.
        destruct (all_next f1 l1) as [[[r|] rem]|] eqn:E; [| |discriminate].
        - rewrite (M _ _ _ E _ Hf). destruct (all_drain k f1 rem) eqn:D; [|discriminate].
          rewrite (IHk _ _ _ D _ Hf). auto.
        - rewrite (M _ _ _ E _ Hf). auto. }
      rewrite (MD _ _ _ _ Q (S f)); auto.
Qed.
Lemma all_registers_ok l : exists out n, visits l out /\
  forall k f, (n <= k)%nat -> (n <= f)%nat -> all_drain k f (all_registers_init l) = Some out.
Proof.
  destruct (visits_total l) as [out H]. destruct (steps_total l) as [n S].
  exists out, n. split; auto. intros. rewrite init_eq. eapply drain_ok; eauto.
Qed.
Lemma drain_visits k f l out : all_drain k f (all_registers_init l) = Some out -> visits l out.
Proof.
  rewrite init_eq. revert f l out. 
  assert (N : forall f l, match all_next f l with
    | Some (Some r, rem) => exists pre, visits pre [r] /\ (forall o, visits rem o -> visits l (r :: o))
    | Some (None, _) => visits l []
    | None => True end).
  { induction f; intros l; cbn; auto. destruct l as [|[r|c] l].
    - constructor.
    - exists [RCRegister r]. split. repeat constructor. intros; constructor; auto.
    - rewrite push_rev. specialize (IHf (c_children (info c) ++ l)).
      destruct (all_next f _) as [[[r|] rem]|]; auto.
      + destruct IHf as (pre & Hp & H). exists pre; split; auto. intros o Ho.
        destruct (visits_split _ _ _ (H o Ho)) as (a & b & A & B & ->). constructor; auto.
      + destruct (visits_split _ _ _ IHf) as (a & b & A & B & E).
        destruct a, b; try discriminate. apply (v_cluster c l [] []); auto. }
  induction k; intros f l out H; cbn in H; [discriminate|].
  specialize (N f l). destruct (all_next f l) as [[[r|] rem]|]; [| |discriminate].
  - destruct (all_drain k f rem) eqn:E; [|discriminate]. injection H as <-.
    destruct N as (_ & _ & N). eauto.
  - injection H as <-. auto.
Qed.

Lemma visits_below l out : visits l out -> forall r, In r out <-> register_below l r.
Proof.
  induction 1; intros x.
  - split; [intros []|]. intros H; inversion H; subst; contradiction.
  - cbn. rewrite IHvisits. split.
    + intros [->|H']; [constructor; left; auto|]. inversion H'; subst.
      * constructor; right; auto.
      * econstructor 2; eauto. right; auto.
    + intros H'; inversion H'; subst.
      * destruct H0; [left; congruence|right; constructor; auto].
      * destruct H0; [congruence|right; econstructor 2; eauto].
  - rewrite in_app_iff, IHvisits1, IHvisits2. split.
    + intros [H'|H'].
      * econstructor 2; eauto. left; auto.
      * inversion H'; subst; [constructor; right; auto|econstructor 2; eauto; right; auto].
    + intros H'; inversion H'; subst.
      * destruct H1; [congruence|right; constructor; auto].
      * destruct H1; [left; congruence|right; econstructor 2; eauto].
Qed.

(** Lookups *)
Lemma find_first_iff {A} (f : A -> bool) l x : find_first f l = Some x <->
  exists before after, l = before ++ x :: after /\ f x = true /\ forall y, In y before -> f y = false.
Proof.
  induction l as [|a l IH]; cbn.
  - split; [discriminate|]. intros (b & c & H & _). destruct b; discriminate.
  - destruct (f a) eqn:E.
    + split.
      * intros H; injection H as ->. exists [], l. repeat split; auto. intros y [].
      * intros (b & c & H & F & N). destruct b as [|b0 b]; cbn in H; injection H as -> H; [congruence|].
        rewrite N in E; [discriminate|left; auto].
    + rewrite IH. split.
      * intros (b & c & -> & F & N). exists (a :: b), c. repeat split; auto. intros y [<-|H]; auto.
      * intros (b & c & H & F & N). destruct b as [|b0 b]; cbn in H; injection H as -> H; [congruence|].
        exists b, c. repeat split; auto. intros; apply N; right; auto.
Qed.
Lemma find_first_none {A} (f : A -> bool) l : find_first f l = None <-> forall x, In x l -> f x = false.
Proof.
  induction l as [|a l IH]; cbn.
  - split; auto. intros _ x [].
  - destruct (f a) eqn:E.
    + split; [discriminate|]. intros H. rewrite (H a) in E; [discriminate|auto].
    + rewrite IH. split; intros H; [intros x [<-|Hx]; auto|auto].
Qed.
Lemma named_iff {A} (name : A -> string) n l x :
  find_first (fun a => seqb (name a) n) l = Some x <-> first_named name n l x.
Proof.
  rewrite find_first_iff. unfold first_named, seqb. split; intros (b & c & H & E & N); exists b, c; repeat split; auto.
  - now apply String.eqb_eq.
  - intros y Hy. apply String.eqb_neq. auto.
  - now apply String.eqb_eq.
  - intros y Hy. apply String.eqb_neq. auto.
Qed.
Lemma named_none {A} (name : A -> string) n l :
  find_first (fun a => seqb (name a) n) l = None <-> forall x, In x l -> name x <> n.
Proof.
  rewrite find_first_none. unfold seqb. split; intros H x Hx; apply String.eqb_neq; auto.
Qed.

(** Registers among children, as positions in the children. *)
Lemma rc_registers_split cs b r a : rc_registers cs = b ++ r :: a ->
  exists cb ca, cs = cb ++ RCRegister r :: ca /\ rc_registers cb = b /\ rc_registers ca = a.
Proof.
  revert b. induction cs as [|[q|c] cs IH]; intros b H; cbn in H.
  - destruct b; discriminate.
  - destruct b as [|b0 b]; injection H as -> H.
    + exists [], cs. auto.
    + destruct (IH _ H) as (cb & ca & -> & <- & <-). exists (RCRegister b0 :: cb), ca. auto.
  - destruct (IH _ H) as (cb & ca & -> & <- & <-). exists (RCCluster c :: cb), ca. auto.
Qed.
Lemma rc_clusters_split cs b r a : rc_clusters cs = b ++ r :: a ->
  exists cb ca, cs = cb ++ RCCluster r :: ca /\ rc_clusters cb = b /\ rc_clusters ca = a.
Proof.
  revert b. induction cs as [|[q|c] cs IH]; intros b H; cbn in H.
  - destruct b; discriminate.
  - destruct (IH _ H) as (cb & ca & -> & <- & <-). exists (RCRegister q :: cb), ca. auto.
  - destruct b as [|b0 b]; injection H as -> H.
    + exists [], cs. auto.
    + destruct (IH _ H) as (cb & ca & -> & <- & <-). exists (RCCluster b0 :: cb), ca. auto.
Qed.
Lemma rc_registers_app a b : rc_registers (a ++ b) = rc_registers a ++ rc_registers b.
Proof. induction a as [|[r|c] a IH]; cbn; rewrite ?IH; auto. Qed.
Lemma rc_clusters_app a b : rc_clusters (a ++ b) = rc_clusters a ++ rc_clusters b.
Proof. induction a as [|[r|c] a IH]; cbn; rewrite ?IH; auto. Qed.
Lemma get_register_iff cs n r : get_register cs n = Some r <->
  exists before after, cs = before ++ RCRegister r :: after /\ r_name (info r) = n /\
    forall q, In (RCRegister q) before -> r_name (info q) <> n.
Proof.
  unfold get_register. rewrite (named_iff (fun q : register => r_name (info q))). unfold first_named. split.
  - intros (b & a & H & E & N). destruct (rc_registers_split _ _ _ _ H) as (cb & ca & -> & <- & <-).
    exists cb, ca. repeat split; auto. intros q Hq. apply N. now apply in_rc_registers.
  - intros (b & a & -> & E & N). exists (rc_registers b), (rc_registers a).
    rewrite rc_registers_app. repeat split; auto. intros q Hq. apply N. now apply in_rc_registers.
Qed.
Lemma get_cluster_iff cs n r : get_cluster cs n = Some r <->
  exists before after, cs = before ++ RCCluster r :: after /\ c_name (info r) = n /\
    forall q, In (RCCluster q) before -> c_name (info q) <> n.
Proof.
  unfold get_cluster. rewrite (named_iff (fun q : cluster => c_name (info q))). unfold first_named. split.
  - intros (b & a & H & E & N). destruct (rc_clusters_split _ _ _ _ H) as (cb & ca & -> & <- & <-).
    exists cb, ca. repeat split; auto. intros q Hq. apply N. now apply in_rc_clusters.
  - intros (b & a & -> & E & N). exists (rc_clusters b), (rc_clusters a).
    rewrite rc_clusters_app. repeat split; auto. intros q Hq. apply N. now apply in_rc_clusters.
Qed.
Lemma get_register_none cs n : get_register cs n = None <-> forall r, In (RCRegister r) cs -> r_name (info r) <> n.
Proof.
  unfold get_register. rewrite (named_none (fun q : register => r_name (info q))).
  split; intros H r Hr; apply H; now apply in_rc_registers.
Qed.
Lemma get_cluster_none cs n : get_cluster cs n = None <-> forall r, In (RCCluster r) cs -> c_name (info r) <> n.
Proof.
  unfold get_cluster. rewrite (named_none (fun q : cluster => c_name (info q))).
  split; intros H r Hr; apply H; now apply in_rc_clusters.
Qed.
