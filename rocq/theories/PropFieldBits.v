(** C24: modifying the bits of a field with the builder a chain of calls gives. *)
From Verif Require Import Base Types Validate Builders Setters SpecCalls SpecBits BitsProofs.

Theorem C24_modify : forall l x cs b,
  f_bit_range (fst (field_modify x (chain field_set field_new cs) l)) = b <-> bits_changed (f_bit_range x) cs b.
Proof. exact field_bits. Qed.
Print Assumptions C24_modify.
(** The value given last does not always win: an earlier width or offset may. *)
Theorem C24_last_wins_refuted : forall l x, exists cs cs' o w,
  br_width (f_bit_range (fst (field_modify x (chain field_set field_new (cs ++ [with_field_bit_width w])) l))) <> w /\
  br_offset (f_bit_range (fst (field_modify x (chain field_set field_new (cs' ++ [with_field_bit_offset o])) l))) <> o.
Proof.
  intros l x. exists [with_field_bit_width 4; with_field_bit_offset 3], [with_field_bit_offset 3], 5, 9. cbn. split; discriminate.
Qed.
Print Assumptions C24_last_wins_refuted.

Example C24_modify_example : forall x, bits_changed x
  [with_field_bit_offset 3; with_field_name "F"; with_field_bit_offset 5; with_field_bit_offset 9; with_field_bit_width 2] (BitRange 3 2 BRT_OffsetWidth).
Proof.
  intros x. apply (changed_twice x [] 3 [with_field_name "F"] 5 [with_field_bit_offset 9; with_field_bit_width 2]).
  - intros c [].
  - intros c [<-|[]]. exact I.
  - intros c [<-|[<-|[]]]; exact I.
Qed.
