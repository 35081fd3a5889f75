(** C107: how deep expansion goes where peripherals only are derived. *)
From Coq Require Import Lia.
From Verif Require Import Base BaseFacts Types Expand SpecArray SpecExpand SpecFlat SpecDepth SpecDeep DeepProofs PropExpand PropDepth.

(** The nesting of the description or the longest way from a peripheral to what it is derived from, whichever is more, is
    enough, and more changes nothing. *)
Theorem C107_peripherals : forall m d rank depth fuel, peripherals_only d -> descending d rank ->
  (forall p, In p (d_peripherals d) -> (rank p <= depth)%nat) -> (nesting d <= depth)%nat -> (depth <= fuel)%nat ->
  expand m fuel d = expand m depth d /\ expand m fuel d <> Panic OutOfFuel.
Proof.
  intros m d rank depth fuel P D R N L. split.
  - apply (deep_enough m d rank fuel depth P D); [|lia|lia]. intros p I. specialize (R p I). lia.
  - apply (deep_result m d rank fuel P D); [|lia]. intros p I. specialize (R p I). lia.
Qed.
Print Assumptions C107_peripherals.

(** Three peripherals in a chain, with one level of registers: two steps are enough, and are needed. *)
Definition chained : device := a_device
  [Single (a_peripheral "A" 0 (Some [RCRegister (Single (a_register "R" 0 None None))]) None);
   Single (a_peripheral "B" 16 None (Some "A"%string));
   Single (a_peripheral "C" 32 None (Some "B"%string))].
Definition place (p : peripheral) : nat :=
  if seqb (p_name (info p)) "C" then 2%nat else if seqb (p_name (info p)) "B" then 1%nat else 0%nat.
Example C107_peripherals_example : peripherals_only chained /\ descending chained place /\
  (forall p, In p (d_peripherals chained) -> (place p <= 2)%nat) /\ nesting chained = 1%nat /\
  (exists e, expand Debug 2 chained = Ok e) /\ expand Debug 1 chained = Panic OutOfFuel.
Proof.
  conjs.
  - intros p [<-|[<-|[<-|[]]]]; cbn; repeat constructor.
  - intros p s [<-|[<-|[<-|[]]]] E; try discriminate E; injection E as <-; (split; [cbn; lia|]);
      intros q [<-|[<-|[<-|[]]]] [C|(i & e & k & x & C & _)]; try discriminate C; cbn; lia.
  - intros p [<-|[<-|[<-|[]]]]; cbn; lia.
  - reflexivity.
  - eexists. vm_compute. reflexivity.
  - vm_compute. reflexivity.
Qed.
