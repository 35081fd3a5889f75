(** C86: the order of elements and the notation of bit ranges do not change what expansion gives. *)
From Coq Require Import Permutation.
From Verif Require Import Base BaseFacts Types Xml Config Encode Parse Expand SpecNum SpecExpand MeaningProofs SpecExact ExactReach SpecParse
  SpecValidate SpecRound SpecAlike ExactProofs AlikeProofs PropParse PropRound PropExpand.

(** ** C86 *)
(** Two descriptions that differ only in order and notation expand to results that differ only in order and notation;
    if one can be expanded, so can the other. *)
Theorem C86_expand : forall m fuel d d' e, device_alike d d' -> unambiguous d' -> expand m fuel d = Ok e ->
  exists e', device_alike e e' /\ exists k, forall fuel', (k <= fuel')%nat -> expand m fuel' d' = Ok e'.
Proof.
  intros m fuel d d' e A U E. destruct (device_expanded_there m d d' e A (expand_meaning _ _ _ _ E)) as (e' & X & L).
  exists e'. split; [exact L|]. exact (expand_reached m d' e' U X).
Qed.
Print Assumptions C86_expand.
Theorem C86_symmetric : forall d d', device_alike d d' -> device_alike d' d.
Proof. exact device_alike_sym. Qed.
Print Assumptions C86_symmetric.
(** Where no two siblings share a name every path is unambiguous, in any order. *)
Theorem C86_apart : forall d, apart d -> unambiguous d.
Proof. exact apart_unambiguous. Qed.
Print Assumptions C86_apart.
Theorem C86_kept : forall d d', device_alike d d' -> apart d -> apart d'.
Proof. exact apart_alike. Qed.
Print Assumptions C86_kept.
(** A device written with any sorting, any bit range notation and any number format, and read back, expands to the same
    result up to order and notation. *)
Theorem C86_written : forall m m' m'' conv cfg pcfg d n fuel e, no_cases cfg -> pc_ignore_enums pcfg = false ->
  device_fits (pc_level pcfg) d -> (forall f, in_device d (EField f) -> spans cfg f) -> apart d ->
  device_encode m conv cfg d = Ok n -> expand m'' fuel d = Ok e ->
  exists d' e', device_parse m' pcfg n = Ok d' /\ device_alike e e' /\
  exists k, forall fuel', (k <= fuel')%nat -> expand m'' fuel' d' = Ok e'.
Proof.
  intros m m' m'' conv cfg pcfg d n fuel e K I F S A W E.
  destruct (C43_meaning m m' conv cfg pcfg d n K I F S W) as (d' & P & L). apply device_like_alike in L.
  destruct (C86_expand m'' fuel d d' e L (apart_unambiguous _ (apart_alike _ _ L A)) E) as (e' & L' & X).
  exists d', e'. auto.
Qed.
Print Assumptions C86_written.

(** ** Examples *)
(** The timers with the derived one first, the cluster before the register, and a field in another notation. *)
Definition turned : device := a_device
  [Single (a_peripheral "T1" 20480 None (Some "T0"));
   Single (a_peripheral "T0" 16384 (Some
     [RCCluster (Array (a_cluster "CH%s" 256
        [RCCluster (Single (a_cluster "IN" 32 [RCRegister (Single (a_register "Q" 0 None (Some "T0.CR")))] None));
         RCRegister (Array (a_register "D%s" 4 None None) (times 2 4))] None)
        (times 2 64));
      RCRegister (Single (a_register "CR" 0 (Some
        [Single (a_field "X" 8 1 [EnumeratedValues None None (Some "ev") []] None);
         Single (FieldInfo "EN" None (BitRange 0 1 BRT_MsbLsb) None None None None [EnumeratedValues (Some "ev") None None [on]] None);
         Array (a_field "IE%s" 4 1 [] (Some "EN")) (times 2 1)]) None))]) None)].
Definition turned_expanded : device := Eval vm_compute in ok_or_self (expand Debug 6 turned) turned.
Lemma register_self (r : register) : rc_alike (RCRegister r) (RCRegister r).
Proof.
  constructor. exists (r_fields (info r)). split; [|now destruct r as [[]|[] ?]]. destruct (r_fields (info r)) as [l|]; cbn; [|exact I].
  apply forall2_shuffled, forall2_self. intros x _. apply field_alike_refl.
Qed.
Example C86_example : apart timers /\ device_alike timers turned /\ expand Debug 6 timers = Ok timers_expanded /\
  expand Debug 6 turned = Ok turned_expanded /\ timers_expanded <> turned_expanded /\ device_alike timers_expanded turned_expanded.
Proof.
  assert (A : apart timers) by (apply apartb_ok; vm_compute; reflexivity).
  assert (L : device_alike timers turned).
  { split; [repeat split|]. exists (rev (d_peripherals timers)). split; [apply Permutation_rev|]. cbn.
    constructor; [exists None; split; [exact I|reflexivity]|]. constructor; [|constructor]. eexists. split; [|reflexivity]. cbn.
    eexists. split; [apply perm_swap|]. constructor.
    - match goal with |- rc_alike (RCCluster ?c) (RCCluster (Array ?i _)) => apply (ra_cluster c (rev (c_children (info c))) (c_children i)) end;
        [apply Permutation_rev|]. cbn.
      constructor; [|constructor; [apply register_self|constructor]].
      match goal with |- rc_alike (RCCluster ?c) (RCCluster (Single ?i)) => apply (ra_cluster c (c_children (info c)) (c_children i)) end;
        [apply Permutation_refl|]. constructor; [apply register_self|constructor].
    - constructor; [|constructor]. constructor. eexists. split; [|reflexivity]. cbn. eexists. split.
      + eapply perm_trans; [apply perm_skip, perm_swap|apply perm_swap].
      + constructor; [apply field_alike_refl|]. constructor; [now exists BRT_MsbLsb|]. constructor; [apply field_alike_refl|constructor]. }
  assert (E : expand Debug 6 timers = Ok timers_expanded) by (vm_compute; reflexivity).
  assert (E' : expand Debug 6 turned = Ok turned_expanded) by (vm_compute; reflexivity).
  conjs; auto; [intros X; vm_compute in X; discriminate X|].
  destruct (C86_expand Debug 6 timers turned _ L (apart_unambiguous _ (apart_alike _ _ L A)) E) as (e' & L' & k & X).
  specialize (X (Nat.max k 6) (Nat.le_max_l _ _)).
  destruct (expand_reached Debug turned turned_expanded (apart_unambiguous _ (apart_alike _ _ L A)) (expand_meaning _ _ _ _ E')) as (k' & X').
  pose proof (expand_meaning _ _ _ _ X) as M. pose proof (expand_meaning _ _ _ _ E') as M'.
  now rewrite <- (device_expanded_fun Debug turned (apart_unambiguous _ (apart_alike _ _ L A)) _ _ M M').
Qed.
Example C86_written_example : no_cases arranging /\ device_fits Strict described /\
  (forall f, in_device described (EField f) -> spans arranging f) /\ apart described /\
  exists n e, device_encode Debug (fun _ s => s) arranging described = Ok n /\ expand Debug 6 described = Ok e.
Proof.
  conjs; [apply C43_example|exact described_fits|apply C43_example|apply apartb_ok; vm_compute; reflexivity|].
  destruct (device_encode Debug (fun _ s => s) arranging described) as [n| |] eqn:E; [|vm_compute in E; discriminate..].
  destruct (expand Debug 6 described) as [e| |] eqn:E'; [|vm_compute in E'; discriminate..]. now exists n, e.
Qed.
(** With two peripherals of one name a reference takes the last, so the order matters. *)
Definition said (n s : string) : peripheral :=
  Single (PeripheralInfo n None None (Some s) None None None None None 0 rp_default None [] (Some []) None).
Theorem C86_ambiguous_refuted : exists d d' e e', device_alike d d' /\ expand Debug 6 d = Ok e /\ expand Debug 6 d' = Ok e' /\
  ~ device_alike e e'.
Proof.
  set (b := Single (a_peripheral "B" 0 None (Some "A"))).
  set (d := a_device [said "A" "x"; said "A" "y"; b]). set (d' := a_device [said "A" "y"; said "A" "x"; b]).
  destruct (expand Debug 6 d) as [e| |] eqn:E; [|vm_compute in E; discriminate..].
  destruct (expand Debug 6 d') as [e'| |] eqn:E'; [|vm_compute in E'; discriminate..].
  exists d, d', e, e'. conjs; auto.
  - split; [repeat split|]. exists (d_peripherals d'). split; [apply perm_swap|]. apply forall2_self. intros p I.
    exists (p_registers (info p)). cbn in I. destruct I as [<-|[<-|[<-|[]]]]; split; try reflexivity; cbn; auto; now exists [].
  - vm_compute in E, E'. injection E as <-. injection E' as <-. intros [_ S].
    eapply shuffled_in in S as (q & I & rs & _ & ->); [|right; right; left; reflexivity]. cbn in I.
    destruct I as [I|[I|[I|[]]]]; discriminate I.
Qed.
Print Assumptions C86_ambiguous_refuted.
