(** Vocabulary for C92: descriptions put together. *)
From Verif Require Import Base Types SpecExpand.

(** The third list has the elements of the other two, each in its order. *)
Inductive interleaved {A} : list A -> list A -> list A -> Prop :=
  | il_nil : interleaved [] [] []
  | il_left x a b l : interleaved a b l -> interleaved (x :: a) b (x :: l)
  | il_right x a b l : interleaved a b l -> interleaved a (x :: b) (x :: l).

(** No peripheral, and no instance of one, has a name in both. *)
Definition strangers (a b : list peripheral) : Prop :=
  forall p q n, In p a -> In q b -> is_called p_name p n -> is_called p_name q n -> False.
