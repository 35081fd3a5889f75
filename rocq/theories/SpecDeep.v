(** Vocabulary for C107: descriptions in which peripherals only are derived. *)
From Verif Require Import Base Types SpecArray SpecExpand SpecFlat.

Definition peripherals_only (d : device) : Prop :=
  forall p, In p (d_peripherals d) -> Forall underived_child (or_empty (p_registers (info p))).
(** A number for every peripheral: not zero if it is derived, and less for what it is derived from. *)
Definition descending (d : device) (rank : peripheral -> nat) : Prop :=
  forall p s, In p (d_peripherals d) -> p_derived_from (info p) = Some s -> (0 < rank p)%nat /\
  forall q, In q (d_peripherals d) -> is_called p_name q s -> (rank q < rank p)%nat.
