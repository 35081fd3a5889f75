(** Vocabulary for C26-C27. *)
From Verif Require Import Base Types.

(** The registers of a list of children at any depth, in document order: a register
    is itself, a cluster stands for the registers of its children, in place. *)
Inductive visits : list register_cluster -> list register -> Prop :=
  | v_nil : visits [] []
  | v_register r l out : visits l out -> visits (RCRegister r :: l) (r :: out)
  | v_cluster c l a b : visits (c_children (info c)) a -> visits l b -> visits (RCCluster c :: l) (a ++ b).

(** [r] is a register of the children [l], at any depth. *)
Inductive register_below : list register_cluster -> register -> Prop :=
  | rb_here l r : In (RCRegister r) l -> register_below l r
  | rb_deeper l c r : In (RCCluster c) l -> register_below (c_children (info c)) r -> register_below l r.

(** [x] is the first of [l] whose name is [n]. *)
Definition first_named {A} (name : A -> string) (n : string) (l : list A) (x : A) : Prop :=
  exists before after, l = before ++ x :: after /\ name x = n /\ forall y, In y before -> name y <> n.
