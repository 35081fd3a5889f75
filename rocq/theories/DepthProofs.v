(** Proofs for C107. *)
From Coq Require Import Lia.
From Verif Require Import Base BaseFacts Types TreeFacts Arrays Expand SpecExpand SpecFlat SpecCause SpecDepth EndProofs CauseProofs MeaningProofs.

Lemma deepest_in l rc : In rc l -> (levels rc <= deepest l)%nat.
Proof. induction l as [|x l IH]; intros I; [destruct I|]. cbn. destruct I as [->|I]; [lia|]. specialize (IH I). unfold deepest in IH. lia. Qed.
Lemma deepest_bound l n : (forall rc, In rc l -> (levels rc <= n)%nat) -> (deepest l <= n)%nat.
Proof.
  induction l as [|x l IH]; intros H; [cbn; lia|]. cbn. pose proof (H x (or_introl eq_refl)).
  assert (deepest l <= n)%nat by (apply IH; intros rc I; apply H; now right). unfold deepest in *. lia.
Qed.
Lemma nesting_in d p : In p (d_peripherals d) -> (deepest (or_empty (p_registers (info p))) <= nesting d)%nat.
Proof.
  unfold nesting. generalize (d_peripherals d). intros l. induction l as [|x l IH]; intros I; [destruct I|]. cbn [fold_right].
  destruct I as [->|I]; [lia|]. specialize (IH I). lia.
Qed.
Lemma nesting_bound d n : (forall p, In p (d_peripherals d) -> (deepest (or_empty (p_registers (info p))) <= n)%nat) -> (nesting d <= n)%nat.
Proof.
  unfold nesting. generalize (d_peripherals d). intros l. induction l as [|x l IH]; intros H; cbn [fold_right]; [lia|].
  pose proof (H x (or_introl eq_refl)). assert (fold_right (fun p n0 => Nat.max (deepest (or_empty (p_registers (info p)))) n0) O l <= n)%nat by (apply IH; intros p I; apply H; now right). lia.
Qed.

Section Depth.
  Variables (m : mode) (ix : index).
  (** Without references, fields and registers need no depth of their own. *)
  Lemma field_flat k k' rp f : underived_field f -> expand_field m ix k rp f = expand_field m ix k' rp f.
  Proof.
    intros [D V]. unfold expand_field. rewrite D. cbn [bind fst snd].
    rewrite (mapM_ext (expand_enum ix k (opt_default (new_field rp (f_name (info f))) None)) (expand_enum ix k' (opt_default (new_field rp (f_name (info f))) None))); [reflexivity|].
    intros e I. rewrite Forall_forall in V. unfold expand_enum. now rewrite (V e I).
  Qed.
  Lemma register_flat k k' b r : r_derived_from (info r) = None -> Forall underived_field (or_empty (r_fields (info r))) ->
    expand_register_array m ix k b r = expand_register_array m ix k' b r.
  Proof.
    intros D F. unfold expand_register_array. rewrite D. cbn [bind fst snd]. destruct (r_fields (info r)) as [fs|]; [|reflexivity].
    cbn [or_empty] in F. rewrite (concatM_ext (expand_field m ix k (opt_default (new_register b (r_name (info r))) None)) (expand_field m ix k' (opt_default (new_register b (r_name (info r))) None))); [reflexivity|].
    intros f I. rewrite Forall_forall in F. exact (field_flat k k' _ f (F f I)).
  Qed.
  Lemma rc_enough rc : forall k k' b, underived_child rc -> (levels rc <= k)%nat -> (levels rc <= k')%nat ->
    expand_rc m ix k b rc = expand_rc m ix k' b rc.
  Proof.
    induction rc as [r|c IH] using rc_tree_ind; intros [|k] [|k'] b U L L'; cbn [levels] in L, L'; try lia; cbn [expand_rc].
    - inversion U as [? D F|]; subst. exact (register_flat k k' b r D F).
    - inversion U as [|? D F]; subst. unfold cluster_info, cluster in *. rewrite D. cbn [bind fst snd]. fold cluster_info in *.
      rewrite (concatM_ext (expand_rc m ix k (opt_default (new_cluster b (c_name (info c))) None)) (expand_rc m ix k' (opt_default (new_cluster b (c_name (info c))) None))); [reflexivity|].
      intros x I. rewrite Forall_forall in F, IH. pose proof (deepest_in _ _ I) as P. unfold deepest in P. apply IH; [exact I|exact (F x I)|lia|lia].
  Qed.
  Lemma rc_needed rc : forall k b l, underived_child rc -> expand_rc m ix k b rc = Ok l -> (levels rc <= k)%nat.
  Proof.
    induction rc as [r|c IH] using rc_tree_ind; intros [|k] b l U E; try discriminate E; cbn [levels]; [lia|].
    inversion U as [|? D F]; subst. cbn [expand_rc] in E. unfold cluster_info, cluster in *. rewrite D in E. cbn [bind fst snd] in E.
    apply bind_ok in E as (kids & E & _). apply concatM_ok in E as (ls & E & _).
    enough (deepest (c_children (info c)) <= k)%nat by (unfold deepest in *; lia).
    apply deepest_bound. intros x I. rewrite Forall_forall in F, IH. destruct (Forall2_in_l _ _ _ E _ I) as (y & _ & Ey).
    exact (IH x I k _ _ (F x I) Ey).
  Qed.
  Lemma peripheral_enough p k k' : underived_peripheral p -> (deepest (or_empty (p_registers (info p))) <= k)%nat ->
    (deepest (or_empty (p_registers (info p))) <= k')%nat -> expand_peripheral m ix k p = expand_peripheral m ix k' p.
  Proof.
    intros [D F] L L'. unfold expand_peripheral. rewrite D. cbn [bind fst snd]. destruct (p_registers (info p)) as [rs|]; [|reflexivity].
    cbn [or_empty] in *. rewrite (concatM_ext (expand_rc m ix k (opt_default (bp_new (p_name (info p))) None)) (expand_rc m ix k' (opt_default (bp_new (p_name (info p))) None))); [reflexivity|].
    intros x I. rewrite Forall_forall in F. pose proof (deepest_in _ _ I). apply rc_enough; [exact (F x I)|lia|lia].
  Qed.
  Lemma peripheral_needed p k l : underived_peripheral p -> expand_peripheral m ix k p = Ok l -> (deepest (or_empty (p_registers (info p))) <= k)%nat.
  Proof.
    intros [D F] E. unfold expand_peripheral in E. rewrite D in E. cbn [bind fst snd] in E. destruct (p_registers (info p)) as [rs|]; [|cbn; lia].
    cbn [or_empty] in *. apply bind_ok in E as (q & E & _). apply bind_ok in E as (kids & E & _). apply concatM_ok in E as (ls & E & _).
    apply deepest_bound. intros x I. rewrite Forall_forall in F. destruct (Forall2_in_l _ _ _ E _ I) as (y & _ & Ey). exact (rc_needed x k _ _ (F x I) Ey).
  Qed.
End Depth.

Lemma depth_enough m d k k' : underived d -> (nesting d <= k)%nat -> (nesting d <= k')%nat -> expand m k d = expand m k' d.
Proof.
  intros U L L'. unfold expand. destruct (index_create d) as [ix| |]; cbn [bind]; [|reflexivity..].
  rewrite (concatM_ext (expand_peripheral m ix k) (expand_peripheral m ix k')); [reflexivity|].
  intros p I. unfold underived in U. rewrite Forall_forall in U. pose proof (nesting_in _ _ I). apply peripheral_enough; [exact (U p I)|lia|lia].
Qed.
Lemma depth_needed m d k e : underived d -> expand m k d = Ok e -> (nesting d <= k)%nat.
Proof.
  intros U E. unfold expand in E. apply bind_ok in E as (ix & _ & E). apply bind_ok in E as (ps & E & _). apply concatM_ok in E as (ls & E & _).
  apply nesting_bound. intros p I. unfold underived in U. rewrite Forall_forall in U. destruct (Forall2_in_l _ _ _ E _ I) as (y & _ & Ey).
  exact (peripheral_needed m ix p k y (U p I) Ey).
Qed.
