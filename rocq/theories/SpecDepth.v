(** Vocabulary for C107: how deep a description is nested. *)
From Verif Require Import Base Types SpecExpand.

(** A register has one level; a cluster one more than the deepest of what it contains. *)
Fixpoint levels (rc : register_cluster) : nat :=
  match rc with
  | RCRegister _ => 1%nat
  | RCCluster c => S (fold_right (fun x n => Nat.max (levels x) n) O (c_children (info c)))
  end.
Definition deepest (l : list register_cluster) : nat := fold_right (fun x n => Nat.max (levels x) n) O l.
Definition nesting (d : device) : nat :=
  fold_right (fun p n => Nat.max (deepest (or_empty (p_registers (info p)))) n) O (d_peripherals d).
