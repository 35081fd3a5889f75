(** C77: expansion does exactly what references, inheritance and arrays mean. *)
From Verif Require Import Base BaseFacts Types Arrays Expand TreeFacts SpecNum SpecArray SpecDerive SpecPath PathProofs
  SpecExpand PlaceProofs ChainProofs MeaningProofs SpecExact ExactProofs ExactReach PropExpand.

(** ** C77 *)
(** The meaning of a device without ambiguous paths is single-valued... *)
Theorem C77_unique : forall m d, unambiguous d ->
  forall d1 d2, device_expanded m d d1 -> device_expanded m d d2 -> d1 = d2.
Proof. exact device_expanded_fun. Qed.
Print Assumptions C77_unique.
(** ...and expansion reaches it, from some depth on... *)
Theorem C77_complete : forall m d d', unambiguous d -> device_expanded m d d' ->
  exists k, forall fuel, (k <= fuel)%nat -> expand m fuel d = Ok d'.
Proof. exact expand_reached. Qed.
Print Assumptions C77_complete.
(** ...so that the two agree. *)
Theorem C77_exactly : forall m d, unambiguous d ->
  forall d', (exists fuel, expand m fuel d = Ok d') <-> device_expanded m d d'.
Proof.
  intros m d U d'. split.
  - intros [fuel H]. exact (expand_meaning _ _ _ _ H).
  - intros H. destruct (expand_reached m d d' U H) as [k K]. exists k. apply K. auto.
Qed.
Print Assumptions C77_exactly.
(** A device that has no meaning is refused or not finished, at any depth. *)
Theorem C77_meaningless : forall m d, (forall d', ~ device_expanded m d d') ->
  forall fuel d', expand m fuel d <> Ok d'.
Proof. intros m d H fuel d' E. exact (H d' (expand_meaning _ _ _ _ E)). Qed.
Print Assumptions C77_meaningless.

(** ** A way to see that a device is unambiguous: the recorded paths differ *)
Definition key (e : entry) : nat * list string :=
  match e with
  | InPeripheral q _ => (0%nat, block_parts q)
  | InCluster q _ => (1%nat, block_parts q)
  | InRegister q _ => (2%nat, register_parts q)
  | InField q _ => (3%nat, field_parts q)
  | InEnum q _ => (4%nat, enum_parts q)
  end.
Lemma nodup_key (l : index) e e' : NoDup (map key l) -> In e l -> In e' l -> key e = key e' -> e = e'.
Proof.
  induction l as [|a l IH]; [intros _ []|]. cbn [map]. intros N I I' E. inversion N as [|? ? Na Nl]; subst.
  destruct I as [->|I], I' as [->|I']; auto.
  - exfalso. apply Na. rewrite E. now apply List.in_map.
  - exfalso. apply Na. rewrite <- E. now apply List.in_map.
Qed.
Section Keys.
  Variables (d : device) (ix : index).
  Hypothesis Hix : index_create d = Ok ix.
  Lemma in_peripheral path x : peripheral_placed d path x -> exists q, path = block_parts q /\ In (InPeripheral q x) ix.
  Proof using Hix.
    intros H. pose proof (placed_recorded d ix Hix _ _ H) as [_ I]. destruct H as (n & -> & _).
    exists (bp_new n). split; [reflexivity|exact I].
  Qed.
  Lemma in_cluster path x : cluster_placed d path x -> exists q, path = block_parts q /\ In (InCluster q x) ix.
  Proof using Hix.
    intros (b & n & kids & -> & K & I & C). destruct (children_recorded d ix Hix _ _ K) as (q & -> & R).
    destruct (cluster_recorded ix _ _ _ _ R I C) as [_ J]. exists (new_cluster q n). split; [reflexivity|exact J].
  Qed.
  Lemma in_register path x : register_placed d path x -> exists q, path = register_parts q /\ In (InRegister q x) ix.
  Proof using Hix. intros H. destruct (register_recorded d ix Hix _ _ H) as (q & fs & E & I & _). eauto. Qed.
  Lemma in_field path x : field_placed d path x -> exists q, path = field_parts q /\ In (InField q x) ix.
  Proof using Hix.
    intros H. destruct (field_recorded d ix Hix _ _ H) as (q & E & I). exists q. split; [exact E|]. apply I.
    unfold field_at. apply in_or_app. right. now left.
  Qed.
  Lemma in_values path x : values_placed d path x -> exists q, path = enum_parts q /\ In (InEnum q x) ix.
  Proof using Hix.
    intros (b & n & f & -> & H & I & E). destruct (field_recorded d ix Hix _ _ H) as (q & -> & J).
    exists (new_enum q n). split; [reflexivity|]. apply J. unfold field_at. apply in_or_app. left.
    apply in_flat_map. exists x. split; [exact I|]. rewrite E. now left.
  Qed.
  (** Two named sets of values in one register have different names. *)
  Definition apart : Prop := forall q q' x y, In (InEnum q x) ix -> In (InEnum q' y) ix ->
    fp_register (ep_field q) = fp_register (ep_field q') -> ep_name q = ep_name q' ->
    fp_name (ep_field q) = fp_name (ep_field q').
  Lemma keys_unambiguous : NoDup (map key ix) -> apart -> unambiguous d.
  Proof using Hix.
    intros N A. split.
    - intros path x y H H'. destruct (in_peripheral _ _ H) as (q & -> & I), (in_peripheral _ _ H') as (q' & E & I').
      assert (K : key (InPeripheral q x) = key (InPeripheral q' y)) by (cbn [key]; congruence).
      pose proof (nodup_key _ _ _ N I I' K). congruence.
    - intros path x y H H'. destruct (in_cluster _ _ H) as (q & -> & I), (in_cluster _ _ H') as (q' & E & I').
      assert (K : key (InCluster q x) = key (InCluster q' y)) by (cbn [key]; congruence).
      pose proof (nodup_key _ _ _ N I I' K). congruence.
    - intros path x y H H'. destruct (in_register _ _ H) as (q & -> & I), (in_register _ _ H') as (q' & E & I').
      assert (K : key (InRegister q x) = key (InRegister q' y)) by (cbn [key]; congruence).
      pose proof (nodup_key _ _ _ N I I' K). congruence.
    - intros path x y H H'. destruct (in_field _ _ H) as (q & -> & I), (in_field _ _ H') as (q' & E & I').
      assert (K : key (InField q x) = key (InField q' y)) by (cbn [key]; congruence).
      pose proof (nodup_key _ _ _ N I I' K). congruence.
    - intros path x y H H'. destruct (in_values _ _ H) as (q & -> & I), (in_values _ _ H') as (q' & E & I').
      assert (K : key (InEnum q x) = key (InEnum q' y)) by (cbn [key]; congruence).
      pose proof (nodup_key _ _ _ N I I' K). congruence.
    - intros reg r f g n x y _ _ _ H H'. destruct (in_values _ _ H) as (q & E & I), (in_values _ _ H') as (q' & E' & I').
      assert (L : forall p z, reg ++ [z; n] = enum_parts p ->
                reg = register_parts (fp_register (ep_field p)) /\ z = fp_name (ep_field p) /\ n = ep_name p).
      { intros p z Z. replace (reg ++ [z; n]) with ((reg ++ [z]) ++ [n]) in Z by (rewrite <- app_assoc; reflexivity).
        unfold enum_parts in Z. apply app_inj_tail in Z as [Z ->]. unfold field_parts in Z.
        apply app_inj_tail in Z as [-> ->]. auto. }
      apply L in E as (E1 & E2 & E3). apply L in E' as (E1' & E2' & E3'). rewrite E2, E2'.
      apply (A q q' x y I I'); [apply (register_parts_inj)|]; congruence.
  Qed.
End Keys.
Definition timers_index : index := Eval vm_compute in ix_of (index_create timers).
Lemma timers_unambiguous : unambiguous timers.
Proof.
  apply (keys_unambiguous timers timers_index); [vm_compute; reflexivity| |].
  - vm_compute.
    repeat (constructor; [cbn [In]; intros H; repeat (destruct H as [H|H]; [discriminate|]); exact H|]). constructor.
  - intros q q' x y I I' E1 E2. unfold timers_index in *. cbn [In] in *.
    repeat (destruct I as [I|I]; [first [discriminate I|injection I; intros; subst]|]); [|contradiction].
    repeat (destruct I' as [I'|I']; [first [discriminate I'|injection I'; intros; subst]|]); [reflexivity|contradiction].
Qed.
Example C77_example : unambiguous timers /\ device_expanded Debug timers timers_expanded /\
  expand Debug 6 timers = Ok timers_expanded.
Proof.
  conjs; [exact timers_unambiguous| |exact (proj1 timers_ok)]. exact (expand_meaning _ _ _ _ (proj1 timers_ok)).
Qed.

(** ** Without that, several results are right *)
Definition described (n s : string) : peripheral :=
  Single (PeripheralInfo n None None (Some s) None None None None None 0 rp_default None [] None None).
Definition deriving (n s : string) : peripheral := Single (a_peripheral n 0 None (Some s)).
Definition twice : device := a_device [described "A" "first"; described "A" "second"; deriving "B" "A"].
Definition twice_to (s : string) : device := a_device [described "A" "first"; described "A" "second"; described "B" s].
Lemma described_alone d n s : peripheral_expanded Debug d (described n s)
  [PeripheralInfo n None None (Some s) None None None None None 0 rp_default None [] None None].
Proof.
  exists [], (described n s), [n], None. conjs; [constructor|apply peripheral_from_self; reflexivity|apply origin_none|reflexivity|reflexivity].
Qed.
Lemma deriving_either s : In (described "A" s) (d_peripherals twice) ->
  peripheral_expanded Debug twice (deriving "B" "A")
    [PeripheralInfo "B" None None (Some s) None None None None None 0 rp_default None [] None None].
Proof.
  intros I. exists [(["A"%string], described "A" s)], (described "B" s), ["A"%string], None. conjs.
  - constructor; [|discriminate|constructor]. split; [reflexivity|]. exists "A"%string. conjs; [reflexivity|exact I|now left].
  - exact (peripheral_from_step (Single (a_peripheral "B" 0 None None)) (described "A" s) [] (described "B" s)
             (peripheral_from_self (described "B" s) eq_refl)).
  - left. exists [], (described "A" s). conjs; [reflexivity|reflexivity|constructor].
  - reflexivity.
  - reflexivity.
Qed.
Lemma twice_either s : In (described "A" s) (d_peripherals twice) -> device_expanded Debug twice (twice_to s).
Proof.
  intros I. split; [repeat split|].
  eexists. split.
  - constructor; [apply described_alone|]. constructor; [apply described_alone|].
    constructor; [apply deriving_either; exact I|constructor].
  - reflexivity.
Qed.
Theorem C77_ambiguous_refuted :
  ~ (forall m d d1 d2, device_expanded m d d1 -> device_expanded m d d2 -> d1 = d2).
Proof.
  intros H. pose proof (twice_either "first" (or_introl eq_refl)) as H1.
  pose proof (twice_either "second" (or_intror (or_introl eq_refl))) as H2.
  discriminate (H _ _ _ _ H1 H2).
Qed.
Print Assumptions C77_ambiguous_refuted.
(** Of those, the later peripheral is taken. *)
Example C77_ambiguous_example : expand Debug 2 twice = Ok (twice_to "second") /\
  device_expanded Debug twice (twice_to "first").
Proof. split; [vm_compute; reflexivity|apply twice_either; now left]. Qed.
