(** C107: expansion of a description without references goes exactly as deep as the description is nested. *)
From Coq Require Import Lia.
From Verif Require Import Base BaseFacts Types Expand SpecArray SpecExpand SpecExact SpecFlat SpecCause SpecEnds SpecParse SpecComplete SpecDepth EndProofs RankProofs CauseProofs DepthProofs PropExpand PropCause PropComplete PropAny.

(** Depth to the amount of the nesting is enough, and more changes nothing. *)
Theorem C107_enough : forall m d fuel, underived d -> (nesting d <= fuel)%nat ->
  expand m fuel d = expand m (nesting d) d /\ expand m fuel d <> Panic OutOfFuel.
Proof.
  intros m d fuel U L. split; [apply (depth_enough m d _ _ U); lia|]. destruct (underived_silent _ U) as [F O].
  destruct (expand_settles m d (acyclic_ends d (underived_acyclic d F O))) as (k & r & N & H).
  rewrite (depth_enough m d fuel (Nat.max k (nesting d)) U L ltac:(lia)), H by lia. exact N.
Qed.
Print Assumptions C107_enough.
(** Less never yields a device. *)
Theorem C107_needed : forall m d fuel e, underived d -> expand m fuel d = Ok e -> (nesting d <= fuel)%nat.
Proof. exact depth_needed. Qed.
Print Assumptions C107_needed.
(** With enough index texts the result is a device, or an overflow is reported in a checked build. *)
Theorem C107_total : forall m d, underived d -> (forall n e, array_in_device d n e -> enough e) ->
  (exists d', expand m (nesting d) d = Ok d') \/ (m = Debug /\ expand m (nesting d) d = Panic Overflow).
Proof.
  intros m d U A. destruct (underived_silent _ U) as [F O]. destruct (C58_total m d F O A) as (k & r & R & H).
  rewrite (depth_enough m d (nesting d) (Nat.max k (nesting d)) U ltac:(lia) ltac:(lia)), H by lia.
  destruct R as [[d' ->]|[M ->]]; [left; now exists d'|right; now split].
Qed.
Print Assumptions C107_total.
(** With references it goes at least as deep as the description is nested once what is inherited is written in place. *)
Theorem C107_any : forall m fuel d d' e, unambiguous d -> device_completed d d' -> expand m fuel d = Ok e -> (nesting d' <= fuel)%nat.
Proof. intros m fuel d d' e A C E. destruct (completed_ok _ _ _ _ _ A C E) as [U E']. exact (depth_needed m d' fuel e U E'). Qed.
Print Assumptions C107_any.

(** A register in a cluster in a cluster, beside a register: three levels. *)
Definition nested : device := a_device [Single (a_peripheral "P" 0 (Some
  [RCRegister (Single (a_register "S" 0 None None));
   RCCluster (Single (a_cluster "A" 16 [RCCluster (Array (a_cluster "B%s" 4 [RCRegister (Single (a_register "R" 0 None None))] None) (times 2 4))] None))]) None)].
Example C107_example : underived nested /\ nesting nested = 3%nat /\ (exists e, expand Debug 3 nested = Ok e) /\
  expand Debug 2 nested = Panic OutOfFuel.
Proof.
  conjs; [|reflexivity|eexists; vm_compute; reflexivity|vm_compute; reflexivity].
  repeat first [apply Forall_cons|apply Forall_nil|split|constructor]; reflexivity.
Qed.

(** ** C35: what expansion can give *)
(** A description is returned as it is exactly if there is nothing to expand in it... *)
Theorem C35_fixed : forall m fuel d, expand m (S fuel) d = Ok d <-> flat_device d.
Proof. intros m fuel d. split; [exact (C32_flat m (S fuel) d d)|exact (C35_identity m fuel d)]. Qed.
Print Assumptions C35_fixed.
(** ...and these are all the descriptions expansion gives. *)
Theorem C35_image : forall m d', (exists fuel d, expand m fuel d = Ok d') <-> flat_device d'.
Proof.
  intros m d'. split; [intros (fuel & d & E); exact (C32_flat m fuel d d' E)|]. intros F. exists 1%nat, d'. exact (C35_identity m 0 d' F).
Qed.
Print Assumptions C35_image.
Example C35_image_example : flat_device timers_expanded /\ ~ flat_device nested.
Proof.
  split; [apply C35_example|]. intros F. pose proof (C35_identity Debug 2 _ F) as E. vm_compute in E. discriminate E.
Qed.
