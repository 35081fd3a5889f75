(** Vocabulary for C95. *)
From Verif Require Import Base.

(** Errors that blame enumerated values. *)
Definition of_values (e : err) : Prop :=
  match e with ENotFound KValues _ => True | ESelfDerived KValues _ => True | _ => False end.
