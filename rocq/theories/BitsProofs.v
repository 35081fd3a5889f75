(** Proofs for C24: the bits of a field modified with the builder a chain of calls gives. *)
From Verif Require Import Base Types Validate Builders Setters SpecValidate SpecBuild SpecCalls SpecBits CallProofs.

Lemma fixed_kept cs : (forall c, In c cs -> no_range c) -> forall b r, fb_bit_range b = Some r ->
  fb_bit_offset (chain field_set b cs) = fb_bit_offset b /\ fb_bit_width (chain field_set b cs) = fb_bit_width b.
Proof.
  induction cs as [|c cs IH]; intros H b r E; [auto|]. rewrite chain_cons.
  assert (G : exists r', fb_bit_range (field_set c b) = Some r' /\ fb_bit_offset (field_set c b) = fb_bit_offset b /\ fb_bit_width (field_set c b) = fb_bit_width b).
  { generalize (H c (or_introl eq_refl)).
    destruct c; cbn; intros []; eauto; unfold fb_set_bit_width, fb_set_bit_offset; rewrite E; cbn; eauto. }
  destruct G as (r' & E' & <- & <-). exact (IH (fun c I => H c (or_intror I)) _ r' E').
Qed.
Lemma quiet_width cs : (forall c, In c cs -> no_bits c) -> forall b, fb_bit_width (chain field_set b cs) = fb_bit_width b.
Proof.
  induction cs as [|c cs IH]; intros H b; [auto|]. rewrite chain_cons, (IH (fun c I => H c (or_intror I)) (field_set c b)).
  generalize (H c (or_introl eq_refl)). destruct c; cbn; intros []; auto.
Qed.
Lemma not_started_width cs : (forall c, In c cs -> no_start c) -> forall b, fb_bit_range b = None -> fb_bit_offset b = None ->
  fb_bit_width (chain field_set b cs) = match latest asked_width cs with Some v => Some v | None => fb_bit_width b end.
Proof.
  induction cs as [|c cs IH]; intros H b R O; [auto|]. rewrite chain_cons.
  destruct (not_started [c] (fun c' I => match I with or_introl e => eq_ind c no_start (H c (or_introl eq_refl)) c' e | or_intror f => False_ind _ f end) b R O) as [R' O'].
  cbn in R', O'. rewrite (IH (fun c I => H c (or_intror I)) _ R' O'). cbn [latest]. destruct (latest asked_width cs); [reflexivity|].
  generalize (H c (or_introl eq_refl)). destruct c; cbn; intros []; auto; unfold fb_set_bit_width; rewrite R, O; reflexivity.
Qed.
Definition bits_after (x : bit_range) (b : field_builder) : bit_range :=
  let r := set_val (fb_bit_range b) x in
  {| br_offset := set_val (fb_bit_offset b) (br_offset r); br_width := set_val (fb_bit_width b) (br_width r); br_type := br_type r |}.
Lemma before_start pre : (forall c, In c pre -> no_start c) ->
  fb_bit_range (chain field_set field_new pre) = None /\ fb_bit_offset (chain field_set field_new pre) = None /\
  fb_bit_width (chain field_set field_new pre) = latest asked_width pre.
Proof.
  intros P. destruct (not_started pre P field_new eq_refl eq_refl) as [R O]. rewrite (not_started_width pre P field_new eq_refl eq_refl).
  repeat split; auto. now destruct (latest asked_width pre).
Qed.
Lemma at_start pre o mid : (forall c, In c pre -> no_start c) -> (forall c, In c mid -> no_bits c) ->
  let b := chain field_set field_new (pre ++ with_field_bit_offset o :: mid) in
  fb_bit_range b = None /\ fb_bit_offset b = Some o /\ fb_bit_width b = latest asked_width pre.
Proof.
  intros P M b. subst b. rewrite chain_app, chain_cons. destruct (before_start pre P) as (R & O & W).
  destruct (quiet mid M (field_set (with_field_bit_offset o) (chain field_set field_new pre))) as [-> ->]. rewrite (quiet_width mid M).
  set (b := chain field_set field_new pre) in *. cbn. unfold fb_set_bit_offset. rewrite R, O. auto.
Qed.
Lemma changed_forward x cs b : bits_changed x cs b -> bits_after x (chain field_set field_new cs) = b.
Proof.
  intros F. destruct F as [pre r post N|cs N|pre o mid P M|pre o mid w post P M N|pre o mid o' post P M N]; unfold bits_after.
  - rewrite chain_app, chain_cons. set (b := field_set _ _).
    rewrite (after_fixed post N b r eq_refl). destruct (fixed_kept post N b r eq_refl) as [-> ->]. reflexivity.
  - destruct (before_start cs N) as (-> & -> & ->). unfold last_or. change (latest width_asked cs) with (latest asked_width cs).
    now destruct (latest asked_width cs).
  - destruct (at_start pre o mid P M) as (-> & -> & ->). unfold last_or. change (latest width_asked pre) with (latest asked_width pre).
    now destruct (latest asked_width pre).
  - change (pre ++ with_field_bit_offset o :: mid ++ with_field_bit_width w :: post) with (pre ++ (with_field_bit_offset o :: mid) ++ with_field_bit_width w :: post).
    rewrite app_assoc, chain_app, chain_cons. destruct (at_start pre o mid P M) as (R & O & W). set (b := chain field_set field_new _) in *.
    assert (E : field_set (with_field_bit_width w) b = fb_set_bits b (Some (BitRange o w BRT_OffsetWidth)) None (fb_bit_width b)).
    { cbn. unfold fb_set_bit_width. now rewrite R, O. }
    rewrite E. set (b' := fb_set_bits _ _ _ _). rewrite (after_fixed post N b' _ eq_refl). destruct (fixed_kept post N b' _ eq_refl) as [-> ->].
    cbn. rewrite W. unfold last_or. change (latest width_asked pre) with (latest asked_width pre). now destruct (latest asked_width pre).
  - change (pre ++ with_field_bit_offset o :: mid ++ with_field_bit_offset o' :: post) with (pre ++ (with_field_bit_offset o :: mid) ++ with_field_bit_offset o' :: post).
    rewrite app_assoc, chain_app, chain_cons. destruct (at_start pre o mid P M) as (R & O & W). set (b := chain field_set field_new _) in *.
    assert (E : field_set (with_field_bit_offset o') b = fb_set_bits b (Some (BitRange o' o BRT_OffsetWidth)) (Some o) None).
    { cbn. unfold fb_set_bit_offset. now rewrite R, O. }
    rewrite E. set (b' := fb_set_bits _ _ _ _). rewrite (after_fixed post N b' _ eq_refl). destruct (fixed_kept post N b' _ eq_refl) as [-> ->].
    reflexivity.
Qed.
Lemma changed_some x cs : exists b, bits_changed x cs b.
Proof.
  generalize (bits_state cs). destruct (fb_bit_range _) as [b|].
  - intros (r & post & F & N & _). destruct F as [pre r post|pre o mid w post P M|pre o mid w post P M]; eexists.
    + now apply changed_range.
    + now apply changed_both.
    + now apply changed_twice.
  - destruct (fb_bit_offset _) as [o|].
    + intros (pre & mid & -> & P & M). eexists. now apply changed_offset.
    + intros N. eexists. now apply changed_width.
Qed.
Lemma field_bits l x cs b : f_bit_range (fst (field_modify x (chain field_set field_new cs) l)) = b <-> bits_changed (f_bit_range x) cs b.
Proof.
  change (f_bit_range (fst (field_modify x (chain field_set field_new cs) l))) with (bits_after (f_bit_range x) (chain field_set field_new cs)).
  split; [|apply changed_forward]. intros <-. destruct (changed_some (f_bit_range x) cs) as [b H]. now rewrite (changed_forward _ _ _ H).
Qed.
