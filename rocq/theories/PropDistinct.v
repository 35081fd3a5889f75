(** C106: references are unambiguous exactly if siblings have different names. *)
From Verif Require Import Base BaseFacts Types Expand SpecArray SpecExpand SpecExact SpecDistinct SpecComplete DistinctProofs PropExpand PropExact PropComplete.

(** Looking at siblings only, level by level, is enough to know that no path of the device means two elements. *)
Theorem C106_siblings : forall d, unambiguous d <-> names_distinct d.
Proof. intros d. split; [exact (unambiguous_distinct d)|exact (distinct_unambiguous d)]. Qed.
Print Assumptions C106_siblings.

(** With such names, expansion does what the description means, and nothing else... *)
Theorem C106_exactly : forall m d, names_distinct d ->
  forall d', (exists fuel, expand m fuel d = Ok d') <-> device_expanded m d d'.
Proof. intros m d N. exact (C77_exactly m d (distinct_unambiguous d N)). Qed.
Print Assumptions C106_exactly.
(** ...in two steps, if one likes. *)
Theorem C106_steps : forall m d d', names_distinct d -> device_completed d d' ->
  forall e, (exists fuel, expand m fuel d = Ok e) <-> (exists fuel, expand m fuel d' = Ok e).
Proof.
  intros m d d' N C e. pose proof (distinct_unambiguous d N) as U. split; intros [fuel E].
  - exists fuel. exact (C103_forth m fuel d d' e U C E).
  - destruct (C103_back m fuel d d' e U C E) as [k K]. exists k. apply K. auto.
Qed.
Print Assumptions C106_steps.

Example C106_example : names_distinct timers /\ ~ names_distinct twice.
Proof.
  split; [exact (unambiguous_distinct _ timers_unambiguous)|]. intros [N _].
  specialize (N (described "A" "first") (described "A" "second") (or_introl eq_refl) (or_intror (or_introl eq_refl)) "A"%string (or_introl eq_refl) (or_introl eq_refl)).
  discriminate N.
Qed.
(** An array has the names of its instances: R0 is the first of the registers R%s and a register of its own. *)
Definition overlapping : device := a_device [Single (a_peripheral "P" 0 (Some
  [RCRegister (Array (a_register "R%s" 0 None None) (times 2 4)); RCRegister (Single (a_register "R0" 8 None None))]) None)].
Example C106_array : ~ names_distinct overlapping.
Proof.
  intros [_ N]. specialize (N _ (or_introl eq_refl)). destruct N as [R _ _ _].
  specialize (R _ _ (or_introl eq_refl) (or_intror (or_introl eq_refl)) "R0"%string).
  enough (H : Array (a_register "R%s" 0 None None) (times 2 4) = Single (a_register "R0" 8 None None)) by discriminate H.
  apply R; [|left; reflexivity]. right. exists (a_register "R%s" 0 None None), (times 2 4), 0, "0"%string.
  conjs; [reflexivity|reflexivity|exact (ArrayProofs.to_string_numeral 0)|exact (InstanceProofs.instance_name_spec (times 2 4) "R%s" "0")].
Qed.
