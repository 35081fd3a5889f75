(** What the two kinds of build may differ in. *)
From Verif Require Import Base.

(** The outcome of a debug build and of a release build: they are the same unless the debug build
    stops because of an arithmetic overflow. *)
Definition same_build {A} (debug release : res A) : Prop := debug = Panic Overflow \/ release = debug.
