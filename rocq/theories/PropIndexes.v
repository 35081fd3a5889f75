(** C08: the texts an array lists for its indexes. *)
From Coq Require Import Lia.
From Verif Require Import Base BaseFacts Types Arrays SpecArray SpecCause ArrayProofs IndexProofs InstanceProofs PropExpand.

(** One text for every element, in order: its own if the array has texts, its number otherwise. *)
Theorem C08_indexes : forall d l, indexes d = Ok l <->
  len_N l = de_dim d /\ forall i, i < de_dim d -> exists s, nth_N l i = Some s /\ index_text d i s.
Proof.
  intros d l. unfold indexes. rewrite mapM_upto. split; intros [L H]; (split; [exact L|]); intros i I; destruct (H i I) as (s & S & T);
    exists s; (split; [exact S|]); now apply index_at_text.
Qed.
Print Assumptions C08_indexes.
(** They can be listed exactly if there are enough of them; it is never an error. *)
Theorem C08_listed : forall d, (enough d -> exists l, indexes d = Ok l) /\ (~ enough d -> indexes d = Panic OutOfBounds).
Proof.
  intros d. unfold indexes. split.
  - intros E. destruct (de_index d) as [l|] eqn:D.
    + specialize (E l D). assert (H : forall i, In i (upto (de_dim d)) -> index_at d i = Ok (List.nth (N.to_nat i) l ""%string)).
      { intros i I. apply in_upto in I. unfold index_at. rewrite D. unfold index_N, nth_N.
        rewrite (nth_error_nth' l ""%string) by lia. reflexivity. }
      rewrite (mapM_all_ok _ _ _ H). eauto.
    + rewrite (mapM_all_ok _ to_string); [eauto|]. intros i _. unfold index_at. now rewrite D.
  - intros E. destruct (de_index d) as [l|] eqn:D; [|exfalso; apply E; intros l' D'; rewrite D in D'; discriminate].
    assert (L : N.of_nat (List.length l) < de_dim d).
    { destruct (N.lt_ge_cases (N.of_nat (List.length l)) (de_dim d)) as [L|L]; [exact L|].
      exfalso. apply E. intros l' D'. rewrite D in D'. injection D' as <-. exact L. }
    assert (K : forall is, (forall i, In i is -> (exists s, index_at d i = Ok s) \/ index_at d i = Panic OutOfBounds) ->
      In (N.of_nat (List.length l)) is -> mapM (index_at d) is = Panic OutOfBounds).
    { induction is as [|i is IH]; intros H I; [destruct I|]. cbn [mapM].
      destruct (H i (or_introl eq_refl)) as [[s S]|S]; rewrite S; cbn [bind]; [|reflexivity].
      destruct I as [->|I].
      - exfalso. unfold index_at in S. rewrite D in S. unfold index_N, nth_N in S. rewrite (proj2 (nth_error_None l _)) in S by lia. discriminate S.
      - rewrite IH; [reflexivity|intros j J; apply H; now right|exact I]. }
    apply K; [|now apply in_upto]. intros i _. unfold index_at. rewrite D. unfold index_N. destruct (nth_N l i); [left; eauto|now right].
Qed.
Print Assumptions C08_listed.
Example C08_indexes_example : exists d e, indexes d = Ok ["A"; "B"]%string /\ indexes e = Ok ["0"; "1"; "2"]%string.
Proof.
  exists {| de_dim := 2; de_increment := 8; de_index := Some ["A"; "B"]%string; de_name := None; de_array_index := None |},
    {| de_dim := 3; de_increment := 8; de_index := None; de_name := None; de_array_index := None |}. split; reflexivity.
Qed.
