(** C105: expansion is three steps. *)
From Verif Require Import Base BaseFacts Types Expand SpecArray SpecExpand SpecExact SpecFlat SpecWritten SpecComplete SpecOpen CompleteProofs CompleteBack WrittenProofs OpenProofs StepsProofs PropExpand PropExact PropOpen.

(** An expansion is had by writing in place what is inherited, then writing out the arrays, then dissolving the clusters. *)
Theorem C105_steps : forall fuel d e, expand Debug fuel d = Ok e ->
  exists d1 d2, device_completed d d1 /\ device_written Debug d1 d2 /\ device_single d2 /\ device_dissolved d2 e /\ flat_device e.
Proof. exact expand_steps. Qed.
Print Assumptions C105_steps.
(** And what is had that way is the expansion, if references are to one element each and no array is empty. *)
Theorem C105_back : forall m d d1 d2 e, unambiguous d -> device_completed d d1 -> device_there d1 -> device_written m d1 d2 ->
  device_dissolved d2 e -> flat_device e -> exists k, forall fuel, (k <= fuel)%nat -> expand m fuel d = Ok e.
Proof. exact steps_expand. Qed.
Print Assumptions C105_back.
(** Both together. *)
Theorem C105_exactly : forall d d1, unambiguous d -> device_completed d d1 -> device_there d1 ->
  forall e, (exists fuel, expand Debug fuel d = Ok e) <->
    flat_device e /\ exists d2, device_written Debug d1 d2 /\ device_dissolved d2 e.
Proof.
  intros d d1 U C T e. split.
  - intros (fuel & E). destruct (expand_steps _ _ _ E) as (d1' & d2 & C' & W & _ & D & F).
    rewrite <- (device_completed_fun d U _ _ C C') in W. split; [exact F|]. exists d2. now split.
  - intros (F & d2 & W & D). destruct (steps_expand Debug d d1 d2 e U C T W D F) as (k & K). exists k. apply K. auto.
Qed.
Print Assumptions C105_exactly.

(** Two timers, the second derived from the first. *)
Example C105_example : unambiguous timers /\ exists d1 d2, device_completed timers d1 /\ device_written Debug d1 d2 /\ device_single d2 /\
  device_dissolved d2 timers_expanded /\ d1 <> timers.
Proof.
  split; [exact timers_unambiguous|]. destruct (expand_steps _ _ _ (proj1 timers_ok)) as (d1 & d2 & C & W & S & D & F). exists d1, d2. conjs; try assumption.
  - intros ->. pose proof (device_completed_underived _ _ C) as H. unfold underived in H. cbn in H. inversion H as [|? ? _ H1]. inversion H1 as [|? ? [N _] _]. discriminate N.
Qed.
(** A cluster with arrays in it, step by step: nothing to complete, the arrays written out, the cluster dissolved. *)
Definition one_register (n : string) (off : N) : register_cluster := RCRegister (Single (a_register n off None None)).
Definition spelled : device := with_kids [RCCluster (Single (a_cluster "A" 16 [one_register "R0" 0; one_register "R1" 4] None))].
Definition arrayed : device := with_kids [RCCluster (Single (a_cluster "A" 16 [rows] None))].
Definition plainly : device := with_kids [one_register "A_R0" 16; one_register "A_R1" 20].
Example C105_stepwise : unambiguous arrayed /\ device_completed arrayed arrayed /\ device_there arrayed /\ device_written Debug arrayed spelled /\
  device_dissolved spelled plainly /\ flat_device plainly /\ expand Debug 3 arrayed = Ok plainly.
Proof.
  conjs.
  - destruct (index_create arrayed) as [ix| |] eqn:E; [|vm_compute in E; discriminate E..]. apply (keys_unambiguous arrayed ix E).
    + vm_compute in E. injection E as <-. vm_compute. repeat constructor; cbn; intuition discriminate.
    + vm_compute in E. injection E as <-. intros. vm_compute in *. intuition congruence.
  - apply completed_same. repeat constructor.
  - repeat constructor; discriminate.
  - split; [repeat split|]. exists [d_peripherals spelled]. split; [|reflexivity]. constructor; [|constructor].
    exists (Some [RCCluster (Single (a_cluster "A" 16 [one_register "R0" 0; one_register "R1" 4] None))]). split; [|now left].
    exists [[RCCluster (Single (a_cluster "A" 16 [one_register "R0" 0; one_register "R1" 4] None))]]. split; [|reflexivity]. constructor; [|constructor].
    apply (cw_cluster Debug (Single (a_cluster "A" 16 [rows] None)) [[one_register "R0" 0; one_register "R1" 4]] [Single (a_cluster "A" 16 [one_register "R0" 0; one_register "R1" 4] None)]);
      [|now left]. constructor; [|constructor].
    apply (cw_register Debug (Array (a_register "R%s" 0 None None) (times 2 4)) None [Single (a_register "R0" 0 None None); Single (a_register "R1" 4 None None)]); [exact I|].
    right. exists [a_register "R0" 0 None None; a_register "R1" 4 None None]. split; [|reflexivity]. apply MeaningProofs.register_instances. vm_compute. reflexivity.
  - apply (kids_dissolved [RCCluster (Single (a_cluster "A" 16 [one_register "R0" 0; one_register "R1" 4] None))] [[one_register "A_R0" 16; one_register "A_R1" 20]]).
    constructor; [|constructor]. apply cd_dissolved with (ls := [[one_register "R0" 0]; [one_register "R1" 4]]); [repeat constructor|].
    constructor; [|constructor; [|constructor]].
    + apply (cm_register "A" 16 (Single (a_register "R0" 0 None None))). split; [reflexivity|exact I].
    + apply (cm_register "A" 16 (Single (a_register "R1" 4 None None))). split; [reflexivity|exact I].
  - apply (ExpandProofs.expand_flat Debug 3 arrayed). vm_compute. reflexivity.
  - vm_compute. reflexivity.
Qed.
