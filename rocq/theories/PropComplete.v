(** C103: expansion in two steps, what is derived first and arrays and clusters then. *)
From Verif Require Import Base BaseFacts Types Expand SpecArray SpecExpand SpecExact SpecFlat SpecWritten SpecComplete ChainProofs FlatProofs MeaningProofs SizeProofs CompleteProofs CompleteBack PropExpand PropExact PropWritten.

(** If there is an expansion, all that is inherited can be written in place: then nothing is derived, and the
    expansion is the same, to the same depth. *)
Theorem C103_complete : forall m fuel d e, expand m fuel d = Ok e ->
  exists d', device_completed d d' /\ underived d' /\ expand m fuel d' = Ok e.
Proof. exact expand_complete. Qed.
Print Assumptions C103_complete.

(** If every reference is to one element, there is one way to do so... *)
Theorem C103_unique : forall d, unambiguous d -> forall d1 d2, device_completed d d1 -> device_completed d d2 -> d1 = d2.
Proof. exact device_completed_fun. Qed.
Print Assumptions C103_unique.
(** ...so that whatever it is, it expands to what the description expands to... *)
Theorem C103_forth : forall m fuel d d' e, unambiguous d -> device_completed d d' -> expand m fuel d = Ok e -> expand m fuel d' = Ok e.
Proof. exact complete_forth. Qed.
Print Assumptions C103_forth.
(** ...and to nothing else. *)
Theorem C103_back : forall m fuel d d' e, unambiguous d -> device_completed d d' -> expand m fuel d' = Ok e ->
  exists k, forall fuel', (k <= fuel')%nat -> expand m fuel' d = Ok e.
Proof. exact complete_back. Qed.
Print Assumptions C103_back.

(** Where nothing is derived, it is the description itself. *)
Theorem C103_same : forall d, underived d -> device_completed d d.
Proof. exact completed_same. Qed.
Print Assumptions C103_same.

(** Once is enough: then nothing is derived, and there is nothing more to write in place. *)
Theorem C103_once : forall d d', device_completed d d' ->
  underived d' /\ device_completed d' d' /\ forall d'', unambiguous d' -> device_completed d' d'' -> d'' = d'.
Proof.
  intros d d' C. pose proof (device_completed_underived d d' C) as U. conjs; [exact U|exact (completed_same d' U)|].
  intros d'' A C'. exact (device_completed_fun d' A _ _ C' (completed_same d' U)).
Qed.
Print Assumptions C103_once.

(** So what is known without derivation holds of any description, completed: where all registers and fields lie... *)
Theorem C103_layout : forall m fuel d e, expand m fuel d = Ok e ->
  exists d' groups, device_completed d d' /\ d_peripherals e = map Single (List.concat groups) /\
    Forall2 (flattened m) (d_peripherals d') groups.
Proof.
  intros m fuel d e E. destruct (expand_complete _ _ _ _ E) as (d' & C & U & E').
  destruct (C34_layout _ _ _ _ U E') as (groups & G). exists d', groups. tauto.
Qed.
Print Assumptions C103_layout.
(** ...and that it can be written with neither derivation nor arrays. *)
Theorem C103_written : forall m fuel d e, expand m fuel d = Ok e ->
  exists d1 d2, device_completed d d1 /\ device_written m d1 d2 /\ device_single d2 /\ expand m fuel d2 = Ok e.
Proof.
  intros m fuel d e E. destruct (expand_complete _ _ _ _ E) as (d1 & C & U & E1).
  destruct (C102_all _ _ _ _ U E1) as (d2 & W). exists d1, d2. tauto.
Qed.
Print Assumptions C103_written.

(** Two timers, the second derived from the first, with a derived field and a derived register. *)
Example C103_example : unambiguous timers /\ ~ underived timers /\
  exists d', device_completed timers d' /\ underived d' /\ expand Debug 6 d' = Ok timers_expanded /\ d' <> timers_expanded.
Proof.
  split; [exact timers_unambiguous|]. assert (N : ~ underived timers).
  { intros H. unfold underived in H. cbn in H. inversion H as [|? ? _ H1]. inversion H1 as [|? ? [D _] _]. discriminate D. }
  split; [exact N|]. destruct (expand_complete _ _ _ _ (proj1 timers_ok)) as (d' & C & U & E). exists d'. conjs; [exact C|exact U|exact E|].
  intros ->. destruct C as [_ C]. inversion C as [|p p' l l' P _ E1 E2]. subst p p' l l'.
  destruct P as (chain & p1 & x & rs & F & G & _ & V & Eq). apply follows_none in F as ->.
  rewrite (ExactProofs.peripheral_from_fun _ _ _ _ G (peripheral_from_self (hd (Single (a_peripheral "" 0 None None)) (d_peripherals timers)) eq_refl)) in *.
  cbn in V. destruct V as (l' & V & ->). apply Forall2_len in V. cbn in Eq. injection Eq as <-. discriminate V.
Qed.

(** With two peripherals of one name, the expansion has the content of the later; but either would do. *)
Lemma twice_completed s : In (described "A" s) (d_peripherals twice) -> device_completed twice (twice_to s).
Proof.
  intros I. assert (P : forall n t, peripheral_completed twice (described n t) (described n t)).
  { intros n t. exists [], (described n t), [n], None. conjs; [constructor|apply peripheral_from_self; reflexivity|apply origin_none|reflexivity|reflexivity]. }
  split; [repeat split|]. constructor; [apply P|]. constructor; [apply P|]. constructor; [|constructor].
  exists [(["A"%string], described "A" s)], (described "B" s), ["A"%string], None. conjs; [| | |reflexivity|reflexivity].
  - constructor; [|discriminate|constructor]. split; [reflexivity|]. exists "A"%string. conjs; [reflexivity|exact I|now left].
  - exact (peripheral_from_step (Single (a_peripheral "B" 0 None None)) (described "A" s) [] (described "B" s)
             (peripheral_from_self (described "B" s) eq_refl)).
  - left. exists [], (described "A" s). conjs; [reflexivity|reflexivity|constructor].
Qed.
Theorem C103_ambiguous_refuted :
  ~ (forall m fuel d d' e, device_completed d d' -> expand m fuel d = Ok e -> expand m fuel d' = Ok e).
Proof.
  intros H. pose proof (H Debug 2%nat twice (twice_to "first") _ (twice_completed "first" (or_introl eq_refl)) (proj1 C77_ambiguous_example)) as E.
  vm_compute in E. discriminate E.
Qed.
Print Assumptions C103_ambiguous_refuted.
