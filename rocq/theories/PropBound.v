(** C38: how much depth expansion needs where references end. *)
From Coq Require Import Lia.
From Verif Require Import Base BaseFacts Types Expand SpecArray SpecExpand SpecEnds SpecBound BoundProofs ArrayProofs PropExpand PropEnds.

(** If the numbers that fall along references are at most [P] for peripherals, [C] for clusters (which are above those in
    them) and [K] for registers, fields and values, then this depth is enough, and more changes nothing. *)
Theorem C38_bound : forall m d P C K fuel, acyclic_to d P C K -> (P < fuel)%nat -> (K + C + 4 <= fuel)%nat ->
  expand m fuel d <> Panic OutOfFuel /\ forall fuel', (fuel <= fuel')%nat -> expand m fuel' d = expand m fuel d.
Proof.
  intros m d P C K fuel A LP LC. destruct (expand_by m d P C K fuel A LP LC) as (r & N & H).
  rewrite (H fuel (le_n _)). split; [exact N|exact H].
Qed.
Print Assumptions C38_bound.
(** There are such bounds whenever references go down. *)
Theorem C38_bounded : forall d, acyclic d <-> exists P C K, acyclic_to d P C K.
Proof. intros d. split; [exact (acyclic_bounded d)|]. intros (P & C & K & A). exact (bounded_acyclic d P C K A). Qed.
Print Assumptions C38_bounded.

Example C38_bound_example : acyclic_to small 1 0 1 /\ expand Debug 5 small <> Panic OutOfFuel.
Proof.
  split; [|vm_compute; discriminate].
  assert (X : forall path c, cluster_placed small path c -> c = kc).
  { intros path c (b & n & kids & -> & C & I & Nm). destruct (small_children _ _ C) as [[-> ->]|[[-> ->]|[-> ->]]].
    - destruct I as [I|[I|[I|[]]]]; try discriminate. now injection I as <-.
    - destruct I.
    - destruct I as [I|[]]. discriminate. }
  split; [|split; [|split; [|split]]].
  - exists (fun p => if is_some (p_derived_from (info p)) then 1%nat else O). split; [|intros path x _; destruct (is_some _); lia].
    intros path x s path' y P R P' M. destruct (small_peripheral _ _ P) as [[-> ->]|[-> ->]]; [discriminate|]. injection R as <-. subst path'.
    destruct (small_peripheral _ _ P') as [[[=] ->]|[[=] ->]]. cbn. lia.
  - exists (fun _ => O). split; [split; [|lia]|].
    + intros path x s path' y P R P' M. rewrite (X _ _ P) in R. discriminate.
    + intros path c x P I. rewrite (X _ _ P) in I. destruct I as [I|[]]. discriminate.
  - exists (fun r => if is_some (r_derived_from (info r)) then 1%nat else O). split; [|intros path x _; destruct (is_some _); lia].
    intros path x s path' y P R P' (parts & C & M).
    assert (K : y = cr).
    { destruct (small_register _ _ P) as [[-> ->]|[[-> ->]|[-> ->]]]; [discriminate| |]; injection R as <-;
        apply cut_split in C; cbn in C; subst parts;
        destruct (small_register _ _ P') as [[-> ->]|[[-> ->]|[-> ->]]]; auto; exfalso;
        destruct M as [(n & b & E & M)|[L M]]; try discriminate; cbn in *; try lia;
        injection E as <-; destruct b as [|? [|? [|? [|]]]]; discriminate. }
    subst y. destruct (small_register _ _ P) as [[-> ->]|[[-> ->]|[-> ->]]]; [discriminate| |]; cbn; lia.
  - exists (fun _ => O). split; [|lia]. intros path x s path' y (b & n & r & -> & P & I & _) R.
    destruct (small_register _ _ P) as [[-> ->]|[[-> ->]|[-> ->]]]; cbn in I; try contradiction. destruct I as [<-|[]]. discriminate.
  - exists (fun _ => O). split; [|lia]. intros path x s path' y (b & n & f & -> & (rb & rn & r & -> & P & I & _) & Iv & _) R.
    destruct (small_register _ _ P) as [[-> ->]|[[-> ->]|[-> ->]]]; cbn in I; try contradiction. destruct I as [<-|[]]. destruct Iv.
Qed.
