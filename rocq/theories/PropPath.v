(** C30: the last part of a block path and what is before it. *)
From Verif Require Import Base BaseFacts Types Expand SpecArray SpecPath SpecExpand PathProofs PropExpand.

(** The path around a cluster and the name of the cluster are the path without its last part and that part. *)
Theorem C30_parent : forall b p n, (bp_parent b = Some p /\ bp_name b = Ok n) <-> block_parts b = block_parts p ++ [n].
Proof.
  intros b p n. split.
  - unfold bp_parent, bp_name. intros [P N]. destruct (pop (bp_path b)) as [[i x]|] eqn:E; [|discriminate P].
    injection P as <-. injection N as <-. apply pop_spec in E. destruct b as [q l]. cbn in *. now rewrite E.
  - intros H. assert (B : b = new_cluster p n).
    { destruct b as [q l], p as [q' l']. cbn in H. injection H as -> ->. reflexivity. }
    rewrite B. destruct (bp_name_cluster p n). now split.
Qed.
Print Assumptions C30_parent.
(** The path of a peripheral has no path around it, and asking for its name panics: name() looks at clusters only. *)
Theorem C30_peripheral_refuted : forall b, ((exists p, block_parts b = [p]) <-> bp_parent b = None) /\
  (bp_parent b = None <-> bp_name b = Panic Unwrap).
Proof.
  intros [q l]. unfold bp_parent, bp_name. cbn [bp_path bp_peripheral]. destruct (pop l) as [[i x]|] eqn:E; cbn.
  - split; split; intros H; try discriminate H. destruct H as [p H]. injection H as _ ->. discriminate E.
  - split; split; intros H; try reflexivity. exists q. f_equal. destruct l as [|a l] using rev_ind; [reflexivity|].
    assert (X : pop (l ++ [a]) = Some (l, a)) by (apply pop_spec; reflexivity). rewrite X in E. discriminate E.
Qed.
Print Assumptions C30_peripheral_refuted.
Example C30_parent_example : bp_parent (BlockPath "P" ["A"; "B"]%string) = Some (BlockPath "P" ["A"]%string) /\
  bp_name (BlockPath "P" ["A"; "B"]%string) = Ok "B"%string /\ bp_name (BlockPath "P" []) = Panic Unwrap.
Proof. conjs; reflexivity. Qed.
