From Verif Require Import BaseFacts Types Derive Arrays SpecArray SpecDerive ArrayProofs InstanceProofs.

Lemma opt_or_inherits {A} (a b : option A) : inherits a b (opt_or a b).
Proof. split; intros; destruct a; cbn; congruence. Qed.
Lemma list_or_inherits {A} (a b : list A) : inherits_list a b (list_or a b).
Proof. split; intros; destruct a; cbn; congruence. Qed.
Lemma inherits_opt_or {A} (a b c : option A) : inherits a b c -> c = opt_or a b.
Proof. intros [H K]; destruct a; cbn; auto. Qed.
Lemma inherits_list_or {A} (a b c : list A) : inherits_list a b c -> c = list_or a b.
Proof. intros [H K]; destruct a; cbn; auto. apply H. discriminate. Qed.
#[global] Hint Resolve opt_or_inherits list_or_inherits : core.

Lemma rp_derive_inherits x y : props_inherit x y (rp_derive x y).
Proof. unfold props_inherit; cbn; auto. Qed.
#[global] Hint Resolve rp_derive_inherits : core.

(** The relation determines the result. *)
Lemma props_inherit_unique x y z : props_inherit x y z -> z = rp_derive x y.
Proof.
  intros (a & b & c & d & e). destruct z; cbn in *. unfold rp_derive.
  f_equal; auto using inherits_opt_or.
Qed.
Ltac inh := repeat match goal with
  | H : _ /\ _ |- _ => destruct H
  | H : inherits _ _ _ |- _ => apply inherits_opt_or in H
  | H : inherits_list _ _ _ |- _ => apply inherits_list_or in H
  | H : props_inherit _ _ _ |- _ => apply props_inherit_unique in H
  end.
Lemma values_inherit_iff x y z : evs_derive x y = z <-> values_inherit x y z.
Proof.
  split. intros <-; unfold values_inherit; cbn; conjs; auto.
  intros H; unfold values_inherit in H; destruct z; cbn in *; inh; subst; reflexivity.
Qed.
Lemma field_inherits_iff x y z : field_derive x y = z <-> field_inherits x y z.
Proof.
  split. intros <-; unfold field_inherits; cbn; conjs; auto.
  intros H; unfold field_inherits in H; destruct z; cbn in *; inh; subst; reflexivity.
Qed.
Lemma register_inherits_iff x y z : register_derive x y = z <-> register_inherits x y z.
Proof.
  split. intros <-; unfold register_inherits; cbn; conjs; auto.
  intros H; unfold register_inherits in H; destruct z; cbn in *; inh; subst; reflexivity.
Qed.
Lemma cluster_inherits_iff x y z : cluster_derive x y = z <-> cluster_inherits x y z.
Proof.
  split. intros <-; unfold cluster_inherits; cbn; conjs; auto.
  intros H; unfold cluster_inherits in H; destruct z; cbn in *; inh; subst; reflexivity.
Qed.
Lemma peripheral_inherits_iff x y z : peripheral_derive x y = z <-> peripheral_inherits x y z.
Proof.
  split. intros <-; unfold peripheral_inherits; cbn; conjs; auto.
  intros H; unfold peripheral_inherits in H; destruct z; cbn in *; inh; subst; reflexivity.
Qed.

(** Algebra *)
Lemma or_rep {A} (a b : option A) : opt_or (opt_or a b) b = opt_or a b.
Proof. destruct a; auto; destruct b; auto. Qed.
Lemma or_self {A} (a : option A) : opt_or a a = a.
Proof. destruct a; auto. Qed.
Lemma or_assoc {A} (a b c : option A) : opt_or (opt_or a b) c = opt_or a (opt_or b c).
Proof. destruct a; auto. Qed.
Lemma lor_rep {A} (a b : list A) : list_or (list_or a b) b = list_or a b.
Proof. destruct a; auto; destruct b; auto. Qed.
Lemma lor_self {A} (a : list A) : list_or a a = a.
Proof. destruct a; auto. Qed.
Lemma lor_assoc {A} (a b c : list A) : list_or (list_or a b) c = list_or a (list_or b c).
Proof. destruct a; auto. Qed.
Lemma rp_algebra : algebra rp_derive.
Proof.
  unfold algebra, repeat_stable, self_stable, chains, rp_derive.
  split; [|split]; intros; cbn; [| destruct x; cbn |]; rewrite ?or_rep, ?or_self, ?or_assoc; auto.
Qed.
Ltac alg d := unfold algebra, repeat_stable, self_stable, chains, d;
  destruct rp_algebra as (R & S & C); unfold repeat_stable, self_stable, chains in *;
  split; [|split]; intros *; cbn; [| match goal with |- _ = ?y => destruct y end; cbn |];
  rewrite ?or_rep, ?or_self, ?or_assoc, ?lor_rep, ?lor_self, ?lor_assoc, ?R, ?S, ?C; auto.
Lemma evs_algebra : algebra evs_derive. Proof. alg evs_derive. Qed.
Lemma field_algebra : algebra field_derive. Proof. alg field_derive. Qed.
Lemma register_algebra : algebra register_derive. Proof. alg register_derive. Qed.
Lemma cluster_algebra : algebra cluster_derive. Proof. alg cluster_derive. Qed.
Lemma peripheral_algebra : algebra peripheral_derive. Proof. alg peripheral_derive. Qed.

(** Occurrence *)
Lemma strip_prefix_some p s r : strip_prefix p s = Some r <-> s = (p ++ r)%string.
Proof.
  revert s; induction p as [|a p IH]; intros s; cbn.
  - split; congruence.
  - destruct s as [|b s]. split; discriminate.
    destruct (Ascii.eqb_spec a b) as [->|n].
    + rewrite IH. split; congruence.
    + split; congruence.
Qed.
Lemma contains_occurs p s : contains p s = true <-> occurs p s.
Proof.
  unfold occurs. induction s as [|c s IH].
  - cbn [contains]. rewrite orb_false_r. unfold starts_with.
    destruct (strip_prefix p "") as [r|] eqn:E; cbn.
    + apply strip_prefix_some in E. split; auto. intros _. exists "", r. exact E.
    + split; [discriminate|]. intros (a & b & H). destruct a; cbn in H; [|discriminate].
      symmetry in H. assert (p = "") by (destruct p; auto; discriminate). subst. discriminate.
  - cbn [contains]. rewrite orb_true_iff, IH. unfold starts_with. split.
    + intros [H|(a & b & H)].
      * destruct (strip_prefix p (String c s)) as [r|] eqn:E; [|discriminate].
        apply strip_prefix_some in E. exists "", r. exact E.
      * exists (String c a), b. cbn. congruence.
    + intros (a & b & H). destruct a as [|c' a].
      * left. cbn in H. apply strip_prefix_some in H. rewrite H. reflexivity.
      * right. cbn in H. injection H as -> H. eauto.
Qed.

Section MA.
  Context {A : Type}.
  Variable name : A -> string.
  Variable derive : A -> A -> A.
  Hypothesis Hname : forall x y, name (derive x y) = name x.
  Hypothesis Halg : algebra derive.
  Let D := ma_derive name derive.

  Definition no_dim_name (d : dim_element) : dim_element :=
    {| de_dim := de_dim d; de_increment := de_increment d; de_index := de_index d;
       de_name := None; de_array_index := de_array_index d |}.

  Lemma ma_info x y : info (D x y) = derive (info x) (info y).
  Proof. destruct x, y; cbn; auto. destruct (contains _ _); auto. Qed.
  Lemma ma_dims x y : dims (D x y) =
    match dims x with
    | Some d => Some d
    | None => if contains "%s" (name (info x)) then option_map no_dim_name (dims y) else None
    end.
  Proof. destruct x, y; cbn; auto; destruct (contains _ _); auto. Qed.
  Lemma ma_ext (x y : maybe_array A) : info x = info y -> dims x = dims y -> x = y.
  Proof. destruct x, y; cbn; congruence. Qed.

  Lemma ma_rep : repeat_stable D.
  Proof.
    destruct Halg as (R & S & C). intros x y. apply ma_ext.
    - rewrite !ma_info. apply R.
    - rewrite !ma_dims, !ma_info, !Hname.
      destruct (dims x); auto. destruct (contains _ _); auto. destruct (dims y); auto.
  Qed.
  Lemma ma_self : self_stable D.
  Proof.
    destruct Halg as (R & S & C). intros x. apply ma_ext.
    - rewrite ma_info. apply S.
    - rewrite ma_dims. destruct (dims x); auto. destruct (contains _ _); auto.
  Qed.
  Lemma ma_chain x y z : D (D x y) z = D x (D y z) <->
    ~ (dims x = None /\ occurs "%s" (name (info x)) /\ dims y = None /\
       ~ occurs "%s" (name (info y)) /\ dims z <> None).
  Proof.
    destruct Halg as (R & S & C).
    assert (E : D (D x y) z = D x (D y z) <-> dims (D (D x y) z) = dims (D x (D y z))).
    { split; [congruence|]. intros; apply ma_ext; auto. rewrite !ma_info. apply C. }
    rewrite E, !ma_dims, !ma_info, !Hname, <- !contains_occurs.
    destruct (dims x); [intuition discriminate|].
    destruct (contains "%s" (name (info x))); [|intuition discriminate].
    destruct (dims y); cbn; [intuition discriminate|].
    destruct (contains "%s" (name (info y))); cbn.
    - destruct (dims z); cbn; intuition.
    - destruct (dims z); cbn; [|intuition].
      split; [discriminate|]. intros H; exfalso; apply H. repeat split; discriminate.
  Qed.

  Lemma ma_shape x y : array_shape name x y (D x y).
  Proof.
    unfold array_shape. rewrite !ma_dims.
    split; [|split]; intros; rewrite <- ?contains_occurs.
    - now rewrite H.
    - rewrite H, H0. destruct (contains _ _); auto.
    - rewrite H, H0. destruct (contains _ _); split; intros; try congruence.
      exists (no_dim_name d). cbn. auto 9.
  Qed.
End MA.
