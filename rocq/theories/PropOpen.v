(** C104: a cluster is short for what it contains, with its name before theirs and its address added to theirs. *)
From Verif Require Import Base BaseFacts Types Expand SpecArray SpecExpand SpecFlat SpecWritten SpecComplete SpecOpen OpenProofs PropExpand PropComplete.

(** Whichever clusters are dissolved, the expansion is the same... *)
Theorem C104_expand : forall m fuel d d' e, underived d -> device_dissolved d d' -> expand m fuel d = Ok e -> expand m fuel d' = Ok e.
Proof. exact dissolved_expands. Qed.
Print Assumptions C104_expand.
(** ...and the other way round, from some depth on. *)
Theorem C104_back : forall m fuel d d' e, underived d -> device_dissolved d d' -> expand m fuel d' = Ok e ->
  exists k, forall fuel', (k <= fuel')%nat -> expand m fuel' d = Ok e.
Proof. exact dissolved_back. Qed.
Print Assumptions C104_back.
(** With derivation, once what is inherited is written in place. *)
Theorem C104_completed : forall m fuel d e, expand m fuel d = Ok e ->
  exists d1, device_completed d d1 /\ forall d2, device_dissolved d1 d2 -> expand m fuel d2 = Ok e.
Proof.
  intros m fuel d e E. destruct (C103_complete _ _ _ _ E) as (d1 & C & U & E1). exists d1. split; [exact C|].
  intros d2 D. exact (dissolved_expands _ _ _ _ _ U D E1).
Qed.
Print Assumptions C104_completed.

(** A cluster with an array of registers and an array of clusters, and without. *)
Definition rows : register_cluster := RCRegister (Array (a_register "R%s" 0 None None) (times 2 4)).
Definition banks : register_cluster := RCCluster (Array (a_cluster "B%s" 32 [RCRegister (Single (a_register "Q" 4 None None))] None) (times 2 8)).
Definition A_rows : register_cluster := RCRegister (Array (a_register "A_R%s" 16 None None) (times 2 4)).
Definition A_banks : register_cluster := RCCluster (Array (a_cluster "A_B%s" 48 [RCRegister (Single (a_register "Q" 4 None None))] None) (times 2 8)).
Definition with_kids (rs : list register_cluster) : device := a_device [Single (a_peripheral "P" 4096 (Some rs) None)].
Definition grouped : device := with_kids [RCCluster (Single (a_cluster "A" 16 [rows; banks] None))].
Definition ungrouped : device := with_kids [A_rows; A_banks].
Lemma kids_dissolved rs ls : Forall2 child_dissolved rs ls -> device_dissolved (with_kids rs) (with_kids (List.concat ls)).
Proof.
  intros F. split; [repeat split|]. constructor; [|constructor]. exists (Some (List.concat ls)). split; [|reflexivity]. exists ls. now split.
Qed.
Lemma grouped_dissolved : device_dissolved grouped ungrouped.
Proof.
  apply (kids_dissolved [RCCluster (Single (a_cluster "A" 16 [rows; banks] None))] [[A_rows; A_banks]]). constructor; [|constructor].
  assert (Fr : free_of "%" "A") by (cbn; intros [H|[]]; discriminate).
  apply cd_dissolved with (ls := [[rows]; [banks]]).
  - constructor; [apply cd_register|]. constructor; [|constructor].
    apply (cd_kept (Array (a_cluster "B%s" 32 [RCRegister (Single (a_register "Q" 4 None None))] None) (times 2 8)) [[RCRegister (Single (a_register "Q" 4 None None))]]).
    constructor; [apply cd_register|constructor].
  - cbn [List.concat app]. constructor.
    + apply (cm_register "A" 16 (Array (a_register "R%s" 0 None None) (times 2 4))). split; [reflexivity|]. split; [exact Fr|]. split; [reflexivity|]. intros k Hk. cbn in *. lia.
    + constructor; [|constructor].
      apply (cm_cluster "A" 16 (Array (a_cluster "B%s" 32 [RCRegister (Single (a_register "Q" 4 None None))] None) (times 2 8))).
      split; [reflexivity|]. split; [exact Fr|]. split; [reflexivity|]. intros k Hk. cbn in *. lia.
Qed.
Example C104_example : underived grouped /\ device_dissolved grouped ungrouped /\
  exists e, expand Debug 5 grouped = Ok e /\ expand Debug 5 ungrouped = Ok e /\
    register_names e = [("P", [("A_R0", 16); ("A_R1", 20); ("A_B0_Q", 52); ("A_B1_Q", 60)])]%string.
Proof.
  split; [repeat constructor|]. split; [exact grouped_dissolved|]. eexists. split; [vm_compute; reflexivity|]. split; vm_compute; reflexivity.
Qed.

(** Dissolved without regard to what is asked of names, a cluster can change its registers: in the name of the cluster
    stands a placeholder, or the instances have names of their own. *)
Definition moved_anyhow (n : string) (off : N) (i : register_info) : register_info := register_moved i (n ++ "_" ++ r_name i) (r_address_offset i + off).
Definition in_cluster (n : string) (off : N) (i : register_info) (e : dim_element) : device :=
  with_kids [RCCluster (Single (a_cluster n off [RCRegister (Array i e)] None))].
Definition beside_cluster (n : string) (off : N) (i : register_info) (e : dim_element) : device :=
  with_kids [RCRegister (Array (moved_anyhow n off i) e)].
Definition own_names : dim_element :=
  DimElement 1 4 None None (Some (DimArrayIndex None [EnumeratedValue "ONE" None (Some 0) None])).
Theorem C104_names_refuted :
  ~ (forall m fuel n off i e d', de_array_index e = None -> expand m fuel (in_cluster n off i e) = Ok d' ->
       expand m fuel (beside_cluster n off i e) = Ok d') /\
  ~ (forall m fuel n off i e d', free_of "%" n -> expand m fuel (in_cluster n off i e) = Ok d' ->
       expand m fuel (beside_cluster n off i e) = Ok d').
Proof.
  split; intros H.
  - destruct (expand Debug 4 (in_cluster "A%s" 0 (a_register "R%s" 0 None None) (times 2 4))) as [d'| |] eqn:E; [|vm_compute in E; discriminate E..].
    pose proof (H _ _ _ _ _ (times 2 4) _ eq_refl E) as K. vm_compute in E, K. rewrite <- E in K. discriminate K.
  - destruct (expand Debug 4 (in_cluster "A" 0 (a_register "R%s" 0 None None) own_names)) as [d'| |] eqn:E; [|vm_compute in E; discriminate E..].
    assert (F : free_of "%" "A") by (cbn; intros [X|[]]; discriminate).
    pose proof (H _ _ _ _ _ _ _ F E) as K. vm_compute in E, K. rewrite <- E in K. discriminate K.
Qed.
Print Assumptions C104_names_refuted.
