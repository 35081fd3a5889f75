(** C91: filling in properties and expanding can be swapped where clusters say nothing new. *)
From Verif Require Import Base Types Derive Arrays Expand SpecExpand SpecProps SpecLeaves SpecSwap SwapProofs PropExpand PropLeaves.

Theorem C91 : forall m fuel d, plain_device d -> clusters_add_nothing d ->
  expand m fuel (expand_properties d) =
  match expand m fuel d with Ok e => Ok (expand_properties e) | Err e => Err e | Panic p => Panic p end.
Proof. intros m fuel d P A. rewrite (device_swap m fuel d P A). now destruct (expand m fuel d). Qed.
Print Assumptions C91.

(** Peripherals P0 and P1 of 16 bits; the clusters in them repeat this size, and a register has a size of its own. *)
Definition repeating : device := a_device
  [Array (PeripheralInfo "P%s" None None None None None None None None 4096 (sized 16) None [] (Some
     [RCCluster (Array (ClusterInfo "C%s" None None None 0 (sized 16)
        [RCRegister (Single (a_register "A" 0 None None));
         RCRegister (Array (own (sized 8) (a_register "B%s" 2 None None)) (times 2 1))] None) (times 2 8));
      RCRegister (Single (a_register "D" 32
        (Some [Single (a_field "F" 0 4 [] None); Single (a_field "G" 4 4 [] (Some "F"))]) None))]) None) (times 2 4096)].
Example C91_example : plain_device repeating /\ clusters_add_nothing repeating /\
  let l := [(Some 16, Some 0); (Some 8, Some 0); (Some 8, Some 0); (Some 16, Some 0); (Some 8, Some 0); (Some 8, Some 0); (Some 16, Some 0)] in
  after (expand Debug 4 (expand_properties repeating)) = [l; l].
Proof.
  split; [repeat constructor|]. split; [|vm_compute; reflexivity].
  intros p rs q [<-|[]] E R. cbn in E. injection E as <-.
  rewrite (PropertyProofs.resolved_fun _ _ _ R (PropertyProofs.resolved_cons _ _ _ (PropertyProofs.resolved_one _))). cbn.
  constructor; [|constructor; [constructor|constructor]].
  constructor; [unfold nothing_new; cbn; auto 10|]. repeat constructor.
Qed.

(** Not so with derivedFrom, even without any cluster: registers that a peripheral inherits get the defaults of the one
    they come from if these are filled in first, and of the one they end up in otherwise. *)
Theorem C91_derived_refuted : exists d a b, clusters_add_nothing d /\
  expand Debug 4 (expand_properties d) = Ok a /\ expand Debug 4 d = Ok b /\
  d_peripherals a <> d_peripherals (expand_properties b).
Proof.
  exists derives, derives_expanded, (ok_or_self (expand Debug 4 derives) derives).
  split; [|split; [vm_compute; reflexivity|split; [vm_compute; reflexivity|]]].
  - intros p rs q H E _. destruct H as [<-|[<-|[<-|[]]]]; cbn in E; inversion E; subst; repeat constructor.
  - intros E. apply (f_equal (map flat_properties)) in E. vm_compute in E. discriminate E.
Qed.
Print Assumptions C91_derived_refuted.
