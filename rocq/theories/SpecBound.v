(** Vocabulary for C38: how far references go. *)
From Verif Require Import Base Types SpecArray SpecDerive SpecExpand SpecEnds.

(** The numbers of [acyclic] with a bound: at most [P] for peripherals, [C] for clusters, [K] for registers, fields and
    sets of enumerated values. *)
Definition numbered_to {A} (n : nat) (placed : list string -> A -> Prop) (ref : A -> option string)
    (means : string -> list string -> Prop) (rank : A -> nat) : Prop :=
  numbered placed ref means rank /\ forall path x, placed path x -> (rank x <= n)%nat.
Definition acyclic_to (d : device) (P C K : nat) : Prop :=
  (exists rank, numbered_to P (peripheral_placed d) (fun p => p_derived_from (info p)) (fun s path => path = [s]) rank) /\
  (exists rank : cluster -> nat,
     numbered_to C (cluster_placed d) (fun c => c_derived_from (info c)) may_mean rank /\
     forall path c x, cluster_placed d path c -> In (RCCluster x) (c_children (info c)) -> (rank x < rank c)%nat) /\
  (exists rank, numbered_to K (register_placed d) (fun r => r_derived_from (info r)) may_mean rank) /\
  (exists rank, numbered_to K (field_placed d) (fun f => f_derived_from (info f)) may_mean rank) /\
  (exists rank, numbered_to K (values_placed d) evs_derived_from may_mean_values rank).
