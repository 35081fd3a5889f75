(** Induction over the register tree. *)
From Verif Require Import BaseFacts Types.

Section RcInd.
  Variable P : register_cluster -> Prop.
  Hypothesis Hreg : forall r, P (RCRegister r).
  Hypothesis Hclu : forall c, Forall P (c_children (info c)) -> P (RCCluster c).
  Fixpoint rc_tree_ind (rc : register_cluster) : P rc :=
    match rc with
    | RCRegister r => Hreg r
    | RCCluster c =>
        Hclu c ((fix go (l : list register_cluster) : Forall P l :=
                   match l with
                   | [] => Forall_nil P
                   | x :: l' => Forall_cons x (rc_tree_ind x) (go l')
                   end) (c_children (info c)))
    end.
End RcInd.

Lemma rc_list_ind (P : register_cluster -> Prop) :
  (forall r, P (RCRegister r)) -> (forall c, Forall P (c_children (info c)) -> P (RCCluster c)) ->
  forall l, Forall P l.
Proof. intros H1 H2 l. apply Forall_forall. intros rc _. now apply rc_tree_ind. Qed.

Lemma in_rc_registers l r : In r (rc_registers l) <-> In (RCRegister r) l.
Proof.
  induction l as [|[r'|c] l IH]; cbn; [tauto|rewrite IH; intuition congruence|rewrite IH; intuition congruence].
Qed.
Lemma in_rc_clusters l c : In c (rc_clusters l) <-> In (RCCluster c) l.
Proof.
  induction l as [|[r'|c'] l IH]; cbn; [tauto|rewrite IH; intuition congruence|rewrite IH; intuition congruence].
Qed.
