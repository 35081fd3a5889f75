(** C102: an array is short for its elements written one after another. *)
From Verif Require Import Base BaseFacts Types Arrays Expand SpecArray SpecExpand SpecFlat SpecWritten MeaningProofs WrittenProofs WrittenBack PropExpand.

(** Whichever arrays are written out, the expansion is the same. *)
Theorem C102_expand : forall m fuel d d' e, underived d -> device_written m d d' -> expand m fuel d = Ok e -> expand m fuel d' = Ok e.
Proof. exact expand_written. Qed.
Print Assumptions C102_expand.

(** If there is an expansion, all arrays can be written out. *)
Theorem C102_all : forall m fuel d e, underived d -> expand m fuel d = Ok e ->
  exists d', device_written m d d' /\ device_single d' /\ expand m fuel d' = Ok e.
Proof. exact all_written. Qed.
Print Assumptions C102_all.

(** The other way round, if no array of peripherals, clusters or registers is empty. *)
Theorem C102_back : forall m fuel d d' e, underived d -> device_there d -> device_written m d d' -> expand m fuel d' = Ok e -> expand m fuel d = Ok e.
Proof. exact expand_written_back. Qed.
Print Assumptions C102_back.

Definition shorthand : device := a_device
  [Array (a_peripheral "P%s" 4096 (Some
     [RCRegister (Array (a_register "R%s" 4 (Some [Array (a_field "F%s" 0 2 [] None) (times 3 2)]) None) (times 2 4))]) None) (times 2 256)].
Definition F_ (n : string) (o : N) : field := Single (a_field n o 2 [] None).
Definition R_ (n : string) (o : N) : register_cluster :=
  RCRegister (Single (a_register n o (Some [F_ "F0" 0; F_ "F1" 2; F_ "F2" 4]) None)).
Definition longhand : device := a_device
  [Single (a_peripheral "P0" 4096 (Some [R_ "R0" 4; R_ "R1" 8]) None); Single (a_peripheral "P1" 4352 (Some [R_ "R0" 4; R_ "R1" 8]) None)].
Lemma shorthand_underived : underived shorthand.
Proof. repeat constructor. Qed.
Lemma shorthand_written : device_written Debug shorthand longhand.
Proof.
  split; [unfold same_but_peripherals; conjs; reflexivity|].
  eexists [_]. split; [|symmetry; apply app_nil_r]. constructor; [|constructor].
  exists (Some [R_ "R0" 4; R_ "R1" 8]). split.
  - exists [map RCRegister [Single (a_register "R0" 4 (Some [F_ "F0" 0; F_ "F1" 2; F_ "F2" 4]) None); Single (a_register "R1" 8 (Some [F_ "F0" 0; F_ "F1" 2; F_ "F2" 4]) None)]].
    split; [|reflexivity]. constructor; [|constructor]. apply cw_register with (o := Some [F_ "F0" 0; F_ "F1" 2; F_ "F2" 4]).
    + exists [[F_ "F0" 0; F_ "F1" 2; F_ "F2" 4]]. split; [|reflexivity]. constructor; [|constructor]. right.
      exists [a_field "F0" 0 2 [] None; a_field "F1" 2 2 [] None; a_field "F2" 4 2 [] None]. split; [|reflexivity]. apply field_instances. vm_compute. reflexivity.
    + right. exists [a_register "R0" 4 (Some [F_ "F0" 0; F_ "F1" 2; F_ "F2" 4]) None; a_register "R1" 8 (Some [F_ "F0" 0; F_ "F1" 2; F_ "F2" 4]) None].
      split; [|reflexivity]. apply register_instances. vm_compute. reflexivity.
  - right. exists [a_peripheral "P0" 4096 (Some [R_ "R0" 4; R_ "R1" 8]) None; a_peripheral "P1" 4352 (Some [R_ "R0" 4; R_ "R1" 8]) None].
    split; [|reflexivity]. apply peripheral_instances. vm_compute. reflexivity.
Qed.
Example C102_example : underived shorthand /\ device_there shorthand /\ device_written Debug shorthand longhand /\ device_single longhand /\
  expand Debug 3 shorthand = Ok longhand /\ expand Debug 3 longhand = Ok longhand.
Proof.
  split; [exact shorthand_underived|]. split; [repeat constructor; discriminate|]. split; [exact shorthand_written|]. split; [repeat constructor|]. split; vm_compute; reflexivity.
Qed.
(** With clusters as well *)
Example C102_nested : exists d' e, expand Debug 4 nested = Ok e /\ device_written Debug nested d' /\ device_single d' /\ expand Debug 4 d' = Ok e.
Proof.
  destruct (expand Debug 4 nested) as [e| |] eqn:E; [|vm_compute in E; discriminate E..].
  destruct (C102_all Debug 4 nested e (proj1 C34_example) E) as (d' & H). exists d', e. tauto.
Qed.

(** An empty array can be what keeps a description from being expanded. *)
Definition overfull : cluster := Array (a_cluster "C%s" 0 [RCRegister (Array (a_register "R%s" 4294967295 None None) (times 2 4))] None) (times 0 4).
Definition with_children (rs : list register_cluster) : device := a_device [Single (a_peripheral "P" 4096 (Some rs) None)].
Theorem C102_empty_refuted : exists d d' e, underived d /\ device_written Debug d d' /\ expand Debug 3 d = Panic Overflow /\ expand Debug 3 d' = Ok e.
Proof.
  exists (with_children [RCCluster overfull]), (with_children []), (with_children []). split; [repeat constructor|].
  split; [|split; vm_compute; reflexivity]. split; [unfold same_but_peripherals; conjs; reflexivity|].
  eexists [_]. split; [|symmetry; apply app_nil_r]. constructor; [|constructor]. exists (Some []). split; [|now left].
  exists [[]]. split; [|reflexivity]. constructor; [|constructor].
  apply (cw_cluster Debug overfull [map RCRegister [Array (a_register "R%s" 4294967295 None None) (times 2 4)]] []).
  - constructor; [|constructor]. apply (cw_register Debug (Array (a_register "R%s" 4294967295 None None) (times 2 4)) None); [exact I|now left].
  - right. exists []. split; [|reflexivity]. split; [reflexivity|]. intros k Hk. cbn in Hk. now apply N.nlt_0_r in Hk.
Qed.
Print Assumptions C102_empty_refuted.
(** What is derived from an array does not survive that the array is written out. *)
Definition deriving_ (rs : list register_cluster) : device := a_device
  [Single (a_peripheral "P" 4096 (Some (rs ++ [RCRegister (Single (a_register "S" 64 None (Some "R%s"%string)))])) None)].
Theorem C102_derived_refuted : exists d d' e, device_written Debug d d' /\ expand Debug 3 d = Ok e /\
  expand Debug 3 d' = Err (ENotFound KRegister "R%s").
Proof.
  exists (deriving_ [RCRegister (Array (a_register "R%s" 4 None None) (times 2 4))]),
    (deriving_ (map RCRegister (map Single [a_register "R0" 4 None None; a_register "R1" 8 None None]))).
  destruct (expand Debug 3 (deriving_ [RCRegister (Array (a_register "R%s" 4 None None) (times 2 4))])) as [e| |] eqn:E; [|vm_compute in E; discriminate E..].
  exists e. split; [|split; [reflexivity|vm_compute; reflexivity]].
  split; [unfold same_but_peripherals; conjs; reflexivity|]. eexists [_]. split; [|symmetry; apply app_nil_r]. constructor; [|constructor].
  exists (p_registers (info (hd (Single (a_peripheral "" 0 None None)) (d_peripherals (deriving_ (map RCRegister (map Single [a_register "R0" 4 None None; a_register "R1" 8 None None]))))))).
  split; [|now left]. exists [map RCRegister (map Single [a_register "R0" 4 None None; a_register "R1" 8 None None]); [RCRegister (Single (a_register "S" 64 None (Some "R%s"%string)))]].
  split; [|reflexivity]. constructor; [|constructor; [|constructor]].
  - apply cw_register with (o := None); [exact I|]. right. eexists. split; [|reflexivity]. apply register_instances. vm_compute. reflexivity.
  - apply (cw_register Debug (Single (a_register "S" 64 None (Some "R%s"%string))) None [Single (a_register "S" 64 None (Some "R%s"%string))]); [exact I|now left].
Qed.
Print Assumptions C102_derived_refuted.
