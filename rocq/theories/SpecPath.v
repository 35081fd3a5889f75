(** Vocabulary for C30: a path is the list of its parts; its text is the parts joined
    with dots. *)
From Verif Require Import Base SpecArray Expand.

Definition block_parts (b : block_path) : list string := bp_peripheral b :: bp_path b.
Definition register_parts (r : register_path) : list string := block_parts (rg_block r) ++ [rg_name r].
Definition field_parts (f : field_path) : list string := register_parts (fp_register f) ++ [fp_name f].
Definition enum_parts (e : enum_path) : list string := field_parts (ep_field e) ++ [ep_name e].

(** The parts of a prefix that may be missing. *)
Definition optional_parts {A} (parts : A -> list string) (o : option A) : list string :=
  match o with Some a => parts a | None => [] end.
Definition dotless (l : list string) : Prop := Forall (free_of ".") l.
