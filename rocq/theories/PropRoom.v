(** C96: registers that have room of their own keep it when expanded. *)
From Verif Require Import BaseFacts Types Arrays Expand SpecExpand SpecFlat SpecRoom RoomProofs PropExpand.
Open Scope string_scope.
Open Scope list_scope.

(** Blocks in which nothing overlaps expand to blocks in which nothing overlaps. *)
Theorem C96_blocks : forall bytes fuel d d', underived d -> expand Debug fuel d = Ok d' ->
  Forall (fun p => orderly_block bytes (kids_of p)) (d_peripherals d) ->
  Forall (fun p => orderly_block bytes (kids_of p)) (d_peripherals d').
Proof.
  intros bytes fuel d d' U E O. destruct (C34_layout Debug fuel d d' U E) as (groups & -> & F).
  apply Forall_forall. intros q I. apply in_map_iff in I as (y & <- & I). apply in_concat in I as (out & J & I).
  destruct (Forall2_in_r _ _ _ F _ J) as (p & Ip & Fp). rewrite Forall_forall in O.
  pose proof (instance_block bytes p out Fp (O p Ip)) as B. rewrite Forall_forall in B. destruct (B y I) as (B1 & B2 & _). now split.
Qed.
Print Assumptions C96_blocks.
(** If the peripherals have room of their own too, no two registers of the device overlap. *)
Theorem C96_device : forall bytes fuel d d', underived d -> expand Debug fuel d = Ok d' -> orderly_device bytes d ->
  asunder (flat_map (addresses bytes) (d_peripherals d')).
Proof.
  intros bytes fuel d d' U E [A O]. destruct (C34_layout Debug fuel d d' U E) as (groups & -> & F).
  exact (device_asunder bytes (d_peripherals d) groups F A O).
Qed.
Print Assumptions C96_device.
(** A register array whose step is less than its registers take overlaps in every instance of the peripheral. *)
Theorem C96_crowded : forall bytes fuel d d', underived d -> expand Debug fuel d = Ok d' ->
  Forall (fun p => crowded bytes (kids_of p)) (d_peripherals d) ->
  Forall (fun p => ~ asunder (map (stretch bytes) (kids_of p))) (d_peripherals d').
Proof.
  intros bytes fuel d d' U E C. destruct (C34_layout Debug fuel d d' U E) as (groups & -> & F).
  apply Forall_forall. intros q I. apply in_map_iff in I as (y & <- & I). apply in_concat in I as (out & J & I).
  destruct (Forall2_in_r _ _ _ F _ J) as (p & Ip & Fp). rewrite Forall_forall in C.
  pose proof (crowded_out bytes p out Fp (C p Ip)) as B. rewrite Forall_forall in B. exact (B y I).
Qed.
Print Assumptions C96_crowded.

(** Registers of four bytes *)
Definition four (p : reg_props) : N := 4.
Definition paired : device := a_device
  [Array (a_peripheral "T%s" 16384 (Some
     [RCCluster (Array (a_cluster "CH%s" 256
        [RCRegister (Array (a_register "D%s" 4 None None) (times 2 4));
         RCCluster (Single (a_cluster "IN" 32 [RCRegister (Single (a_register "Q" 0 None None))] None))] None)
        (times 2 64)); RCRegister (Single (a_register "CR" 0 None None))]) None) (times 2 4096)].
Ltac clear_of := first [left; vm_compute; discriminate | right; vm_compute; discriminate].
Ltac pairwise := repeat (apply FOP_cons; [repeat (apply Forall_cons; [clear_of|]); apply Forall_nil|]); apply FOP_nil.
Lemma paired_orderly : orderly_device four paired.
Proof.
  split; [cbn [paired a_device d_peripherals map]; pairwise|]. constructor; [|constructor]. split; [right; vm_compute; discriminate|].
  split; [cbn; pairwise|]. cbn [kids_of info a_peripheral p_registers or_empty]. apply Forall_cons; [|repeat constructor]. constructor; [right; vm_compute; discriminate|cbn; pairwise|].
  constructor; [constructor; right; vm_compute; discriminate|]. repeat constructor.
Qed.
Example C96_example : underived paired /\ orderly_device four paired /\ exists d', expand Debug 4 paired = Ok d' /\
  flat_map (addresses four) (d_peripherals d') =
  [(16644, 4); (16648, 4); (16672, 4); (16708, 4); (16712, 4); (16736, 4); (16384, 4);
   (20740, 4); (20744, 4); (20768, 4); (20804, 4); (20808, 4); (20832, 4); (20480, 4)].
Proof.
  split; [repeat constructor|]. split; [exact paired_orderly|].
  destruct (expand Debug 4 paired) as [d'| |] eqn:E; vm_compute in E; try discriminate. injection E as <-. eexists. split; reflexivity.
Qed.
(** Interleaved arrays do not overlap, though the room of one includes that of the other. *)
Definition interleaved_arrays : device := a_device [Single (a_peripheral "P" 0 (Some
  [RCRegister (Array (a_register "A%s" 0 None None) (times 2 8)); RCRegister (Array (a_register "B%s" 4 None None) (times 2 8))]) None)].
Example C96_interleaved : ~ orderly_device four interleaved_arrays /\ exists d', expand Debug 4 interleaved_arrays = Ok d' /\
  asunder (flat_map (addresses four) (d_peripherals d')).
Proof.
  split.
  - intros [_ O]. inversion O as [|? ? [_ [A _]] _]; subst. inversion A as [|? ? F _]; subst. inversion F as [|? ? K _]; subst.
    destruct K as [K|K]; vm_compute in K; apply K; reflexivity.
  - destruct (expand Debug 4 interleaved_arrays) as [d'| |] eqn:E; vm_compute in E; try discriminate. injection E as <-. eexists. split; [reflexivity|].
    cbn. pairwise.
Qed.
Definition squeezed : device := a_device [Single (a_peripheral "P" 0 (Some
  [RCCluster (Single (a_cluster "C" 0 [RCRegister (Array (a_register "A%s" 0 None None) (times 2 2))] None))]) None)].
Example C96_crowded_example : underived squeezed /\ Forall (fun p => crowded four (kids_of p)) (d_peripherals squeezed) /\
  exists d', expand Debug 4 squeezed = Ok d' /\ flat_map (addresses four) (d_peripherals d') = [(0, 4); (2, 4)].
Proof.
  split; [repeat constructor|]. split.
  - constructor; [|constructor]. eapply cw_cluster; [left; reflexivity|discriminate|]. eapply cw_register; [left; reflexivity|vm_compute; discriminate|reflexivity].
  - destruct (expand Debug 4 squeezed) as [d'| |] eqn:E; vm_compute in E; try discriminate. injection E as <-. eexists. split; reflexivity.
Qed.
(** In release builds offsets wrap around, and registers with room of their own may end up in one place. *)
Theorem C96_release_refuted : exists bytes d d', underived d /\ orderly_device bytes d /\ expand Release 4 d = Ok d' /\
  ~ asunder (flat_map (addresses bytes) (d_peripherals d')).
Proof.
  exists four, (a_device [Single (a_peripheral "P" 0 (Some
    [RCRegister (Array (a_register "A%s" 0 None None) (times 3 (2 ^ 31)))]) None)]).
  match goal with |- exists d', ?U /\ ?O /\ ?X = _ /\ _ => destruct X as [d'| |] eqn:E end; vm_compute in E; try discriminate.
  injection E as <-. eexists. split; [repeat constructor|]. split; [|split; [reflexivity|]].
  - split; [cbn; pairwise|]. constructor; [|constructor]. split; [exact I|]. split; [cbn; pairwise|].
    apply Forall_cons; [|constructor]. constructor. right. vm_compute. discriminate.
  - cbn. intros A. inversion A as [|? ? F _]; subst. inversion F as [|? ? _ F']; subst. inversion F' as [|? ? [K|K] _]; subst; vm_compute in K; now apply K.
Qed.
Print Assumptions C96_release_refuted.
