(** Proofs for C107: depth where peripherals only are derived. *)
From Coq Require Import Lia.
From Verif Require Import Base BaseFacts Types TreeFacts Derive DeriveProofs Arrays Expand SpecArray SpecPath SpecExpand SpecFlat SpecCause SpecEnds SpecDepth SpecDeep ExpandProofs PlaceProofs EndProofs RankProofs CauseProofs ChainProofs DepthProofs.

Section Deep.
  Variables (d : device) (rank : peripheral -> nat).
  Hypothesis (P : peripherals_only d) (D : descending d rank).
  Lemma only_child rc : child_of d rc -> underived_child rc.
  Proof using P.
    induction 1 as [p rc Ip I|c rc _ IH I].
    - pose proof (P p Ip) as F. rewrite Forall_forall in F. exact (F rc I).
    - inversion IH as [|? _ F]; subst. rewrite Forall_forall in F. exact (F rc I).
  Qed.
  Lemma only_field f : field_of d f -> underived_field f.
  Proof using P.
    intros (r & H & I). pose proof (only_child _ H) as K. inversion K as [? _ F|]; subst. rewrite Forall_forall in F. exact (F f I).
  Qed.
  Lemma only_acyclic : acyclic d.
  Proof using P D.
    split; [|split; [|split; [|split]]].
    - exists rank. intros path x s path' y (n & _ & I & _) E (n' & -> & I' & C) M. injection M as ->. exact (proj2 (D x s I E) y I' C).
    - exists (fun c => height (RCCluster c)). split.
      + intros path x s path' y (b & n & kids & _ & C & I & _) E. exfalso. assert (H : child_of d (RCCluster x)) by (eapply placed_child; eassumption).
        pose proof (only_child _ H) as K. inversion K; subst. congruence.
      + intros path c x _ I. apply height_child, I.
    - exists (fun _ => 0%nat). intros path x s path' y H E. exfalso. apply placed_register in H. pose proof (only_child _ H) as K. inversion K; subst. congruence.
    - exists (fun _ => 0%nat). intros path x s path' y H E. exfalso. apply placed_field in H. destruct (only_field _ H). congruence.
    - exists (fun _ => 0%nat). intros path x s path' y (b & n & f & _ & C & I & _) E. exfalso. apply placed_field in C.
      destruct (only_field _ C) as [_ F]. rewrite Forall_forall in F. specialize (F x I). congruence.
  Qed.

  Variables (m : mode) (ix : index).
  Hypothesis Hix : index_create d = Ok ix.
  (** What a peripheral contains comes from the description, before and after following its reference. *)
  Definition at_home (p : peripheral) : Prop := Forall underived_child (or_empty (p_registers (info p))) /\
    (deepest (or_empty (p_registers (info p))) <= nesting d)%nat.
  Lemma home_in p : In p (d_peripherals d) -> at_home p.
  Proof using P. intros I. split; [exact (P p I)|exact (nesting_in d p I)]. Qed.
  Lemma derive_deep k : forall k' p s, (forall q, In q (d_peripherals d) -> is_called p_name q s -> (rank q < k)%nat /\ (rank q < k')%nat) ->
    (k <> O) -> (k' <> O) -> at_home p -> derive_peripheral ix k p s = derive_peripheral ix k' p s /\
    forall p' o, derive_peripheral ix k p s = Ok (p', o) -> at_home p'.
  Proof using P D Hix.
    induction k as [|k IH]; intros [|k'] p s H Z Z' A; try contradiction. cbn [derive_peripheral].
    destruct (seqb s (p_name (info p))); [split; [reflexivity|discriminate]|].
    destruct (ix_peripheral ix (bp_new s)) as [q|] eqn:E; cbn [ok_or bind]; [|split; [reflexivity|discriminate]].
    destruct (ix_peripheral_sound d ix Hix _ _ E) as (n & N & I & C). cbn in N. injection N as <-.
    destruct (H q I C) as [L L'].
    assert (A' : at_home (peripheral_ma_derive p q)).
    { unfold at_home. assert (Y : info (peripheral_ma_derive p q) = peripheral_derive (info p) (info q)) by apply ma_derive_info. rewrite Y.
      cbn [peripheral_derive p_registers]. destruct (p_registers (info p)) as [rs|] eqn:R; cbn [opt_or].
      - unfold at_home in A. rewrite R in A. exact A.
      - exact (home_in q I). }
    destruct (p_derived_from (info q)) as [s'|] eqn:Q.
    - destruct (D q s' I Q) as [Z0 D']. apply IH; [|lia|lia|exact A'].
      intros x Ix Cx. pose proof (D' x Ix Cx). lia.
    - split; [reflexivity|]. intros p' o X. injection X as <- <-. exact A'.
  Qed.

  Lemma peripheral_deep p k k' : In p (d_peripherals d) -> (rank p <= k)%nat -> (rank p <= k')%nat ->
    (nesting d <= k)%nat -> (nesting d <= k')%nat -> expand_peripheral m ix k p = expand_peripheral m ix k' p.
  Proof using P D Hix.
    intros I L L' N N'. unfold expand_peripheral. destruct (p_derived_from (info p)) as [s|] eqn:E.
    - destruct (D p s I E) as [Z0 D'].
      assert (A : at_home (ma_map (fun i => p_with i (p_registers i) None) p)).
      { pose proof (home_in p I) as A. destruct p; exact A. }
      destruct (derive_deep k k' _ s (fun q Iq C => conj (Nat.lt_le_trans _ _ _ (D' q Iq C) L) (Nat.lt_le_trans _ _ _ (D' q Iq C) L'))
        ltac:(lia) ltac:(lia) A) as [X H].
      rewrite <- X. destruct (derive_peripheral ix k _ s) as [[p' o]| |]; cbn [bind fst snd]; [|reflexivity..].
      destruct (H p' o eq_refl) as [F B]. destruct (p_registers (info p')) as [rs|]; [|reflexivity]. cbn [or_empty] in F, B.
      rewrite (concatM_ext (expand_rc m ix k (opt_default (bp_new (p_name (info p'))) o)) (expand_rc m ix k' (opt_default (bp_new (p_name (info p'))) o))); [reflexivity|].
      intros x Ix. rewrite Forall_forall in F. pose proof (deepest_in _ _ Ix). apply rc_enough; [exact (F x Ix)|lia|lia].
    - pose proof (home_in p I) as [F B]. pose proof (peripheral_enough m ix p k k' (conj E F) ltac:(lia) ltac:(lia)) as X.
      unfold expand_peripheral in X. rewrite E in X. exact X.
  Qed.
End Deep.

Lemma deep_enough m d rank k k' : peripherals_only d -> descending d rank ->
  (forall p, In p (d_peripherals d) -> (rank p <= k)%nat /\ (rank p <= k')%nat) ->
  (nesting d <= k)%nat -> (nesting d <= k')%nat -> expand m k d = expand m k' d.
Proof.
  intros P D R L L'. unfold expand. destruct (index_create d) as [ix| |] eqn:Hix; cbn [bind]; [|reflexivity..].
  rewrite (concatM_ext (expand_peripheral m ix k) (expand_peripheral m ix k')); [reflexivity|].
  intros p I. destruct (R p I). now apply (peripheral_deep d rank P D m ix Hix).
Qed.
Lemma deep_result m d rank k : peripherals_only d -> descending d rank ->
  (forall p, In p (d_peripherals d) -> (rank p <= k)%nat) -> (nesting d <= k)%nat -> expand m k d <> Panic OutOfFuel.
Proof.
  intros P D R L. destruct (expand_settles m d (acyclic_ends d (only_acyclic d rank P D))) as (j & r & N & H).
  rewrite (deep_enough m d rank k (Nat.max j k) P D), H; [exact N|lia| |lia|lia]. intros p I. specialize (R p I). lia.
Qed.
