(** C38: when expansion ends. *)
From Verif Require Import Base BaseFacts Types Expand SpecArray SpecPath PathProofs ArrayProofs SpecExpand SpecEnds EndProofs RankProofs PropExpand.

(** The fuel of the model only cuts off: a result obtained with some fuel is the result
    with any more. *)
Theorem C38_fuel : forall m k k' d, (k <= k')%nat ->
  expand m k d = Panic OutOfFuel \/ expand m k' d = expand m k d.
Proof. exact expand_mono. Qed.
Print Assumptions C38_fuel.
(** If following references always ends, so does expansion: from some fuel on there is
    one result. *)
Theorem C38_terminates : forall m d, device_ends d ->
  exists k r, r <> Panic OutOfFuel /\ forall k', (k <= k')%nat -> expand m k' d = r.
Proof. exact expand_settles. Qed.
Print Assumptions C38_terminates.
Theorem C38_acyclic : forall m d, acyclic d ->
  exists k r, r <> Panic OutOfFuel /\ forall k', (k <= k')%nat -> expand m k' d = r.
Proof. intros m d A. exact (expand_settles m d (acyclic_ends d A)). Qed.
Print Assumptions C38_acyclic.

Definition cr : register := Single (a_register "CR" 0 (Some [Single (a_field "EN" 0 1 [] None)]) None).
Definition sr : register := Single (a_register "SR" 4 None (Some "CR"%string)).
Definition qr : register := Single (a_register "Q" 0 None (Some "T0.CR"%string)).
Definition kc : cluster := Single (a_cluster "K" 64 [RCRegister qr] None).
Definition t0 : peripheral := Single (a_peripheral "T0" 0 (Some [RCRegister cr; RCRegister sr; RCCluster kc]) None).
Definition t1 : peripheral := Single (a_peripheral "T1" 4096 None (Some "T0"%string)).
Definition small : device := a_device [t0; t1].
Lemma small_peripheral path p : peripheral_placed small path p ->
  (path = ["T0"%string] /\ p = t0) \/ (path = ["T1"%string] /\ p = t1).
Proof.
  intros (n & -> & I & Nm). destruct I as [<-|[<-|[]]]; destruct Nm as [->|(i & e & k & idx & E & _)]; try discriminate; auto.
Qed.
Lemma small_children path kids : children_placed small path kids ->
  (path = ["T0"%string] /\ kids = [RCRegister cr; RCRegister sr; RCCluster kc]) \/ (path = ["T1"%string] /\ kids = []) \/
  (path = ["T0"; "K"]%string /\ kids = [RCRegister qr]).
Proof.
  induction 1 as [path p P|path n kids c C IH I Nm].
  - destruct (small_peripheral _ _ P) as [[-> ->]|[-> ->]]; auto.
  - destruct IH as [[-> ->]|[[-> ->]|[-> ->]]].
    + destruct I as [I|[I|[I|[]]]]; try discriminate. injection I as <-.
      destruct Nm as [->|(i & e & k & idx & E & _)]; [|discriminate]. auto.
    + destruct I.
    + destruct I as [I|[]]; discriminate.
Qed.
Lemma small_register path r : register_placed small path r ->
  (path = ["T0"; "CR"]%string /\ r = cr) \/ (path = ["T0"; "SR"]%string /\ r = sr) \/ (path = ["T0"; "K"; "Q"]%string /\ r = qr).
Proof.
  intros (b & n & kids & -> & C & I & Nm). destruct (small_children _ _ C) as [[-> ->]|[[-> ->]|[-> ->]]].
  - destruct I as [I|[I|[I|[]]]]; try discriminate; injection I as <-;
      destruct Nm as [->|(i & e & k & idx & E & _)]; try discriminate; auto.
  - destruct I.
  - destruct I as [I|[]]. injection I as <-. destruct Nm as [->|(i & e & k & idx & E & _)]; [|discriminate]. auto.
Qed.
Example C38_example : acyclic small /\ (exists d', expand Debug 4 small = Ok d') /\ expand Debug 1 small = Panic OutOfFuel.
Proof.
  split; [|split; [eexists; vm_compute; reflexivity|vm_compute; reflexivity]].
  split; [|split; [|split; [|split]]].
  - exists (fun p => if is_some (p_derived_from (info p)) then 1%nat else O).
    intros path x s path' y P R P' M. destruct (small_peripheral _ _ P) as [[-> ->]|[-> ->]]; [discriminate|]. injection R as <-. subst path'.
    destruct (small_peripheral _ _ P') as [[[=] ->]|[[=] ->]]. cbn. lia.
  - assert (X : forall path c, cluster_placed small path c -> c = kc).
    { intros path c (b & n & kids & -> & C & I & Nm). destruct (small_children _ _ C) as [[-> ->]|[[-> ->]|[-> ->]]].
      - destruct I as [I|[I|[I|[]]]]; try discriminate. now injection I as <-.
      - destruct I.
      - destruct I as [I|[]]. discriminate. }
    exists (fun _ => O). split.
    + intros path x s path' y P R P' M. rewrite (X _ _ P) in R. discriminate.
    + intros path c x P I. rewrite (X _ _ P) in I. destruct I as [I|[]]. discriminate.
  - exists (fun r => if is_some (r_derived_from (info r)) then 1%nat else O).
    intros path x s path' y P R P' (parts & C & M).
    assert (K : y = cr).
    { destruct (small_register _ _ P) as [[-> ->]|[[-> ->]|[-> ->]]]; [discriminate| |]; injection R as <-;
        apply cut_split in C; cbn in C; subst parts;
        destruct (small_register _ _ P') as [[-> ->]|[[-> ->]|[-> ->]]]; auto; exfalso;
        destruct M as [(n & b & E & M)|[L M]]; try discriminate; cbn in *; try lia;
        injection E as <-; destruct b as [|? [|? [|? [|]]]]; discriminate. }
    subst y. destruct (small_register _ _ P) as [[-> ->]|[[-> ->]|[-> ->]]]; [discriminate| |]; cbn; lia.
  - exists (fun _ => O). intros path x s path' y (b & n & r & -> & P & I & _) R.
    destruct (small_register _ _ P) as [[-> ->]|[[-> ->]|[-> ->]]]; cbn in I; try contradiction. destruct I as [<-|[]]. discriminate.
  - exists (fun _ => O). intros path x s path' y (b & n & f & -> & (rb & rn & r & -> & P & I & _) & Iv & _) R.
    destruct (small_register _ _ P) as [[-> ->]|[[-> ->]|[-> ->]]]; cbn in I; try contradiction. destruct I as [<-|[]]. destruct Iv.
Qed.
