(** C101: what has no content of its own has that of what it is derived from. *)
From Verif Require Import Base BaseFacts Types Expand SpecArray SpecDerive SpecExpand SpecExact SpecShare ExactProofs ShareProofs MeaningProofs ArrayProofs PropExpand PropExact.

(** Peripherals: all instances of both, in the expanded device, have the very same registers. *)
Theorem C101_peripherals : forall m fuel d e, unambiguous d -> expand m fuel d = Ok e -> exists groups,
  d_peripherals e = map Single (List.concat groups) /\ List.length groups = List.length (d_peripherals d) /\
  forall i j p q ps qs, nth_error (d_peripherals d) i = Some p -> nth_error groups i = Some ps ->
    nth_error (d_peripherals d) j = Some q -> nth_error groups j = Some qs -> peripheral_source d p q ->
    exists rs, Forall (fun y => p_registers y = rs) (ps ++ qs) /\ (rs = None <-> p_registers (info q) = None) /\
      (dims p = None -> ~ occurs "%s" (p_name (info p)) -> exists y, ps = [y] /\ p_name y = p_name (info p)) /\
      (dims q = None -> exists z, qs = [z] /\ p_name z = p_name (info q)).
Proof. exact device_shared. Qed.
Print Assumptions C101_peripherals.

(** Clusters: the same registers, seen from other places. *)
Theorem C101_clusters : forall m d ctx (c : cluster) at_q (q : cluster) rs qs, unambiguous d -> cluster_source d ctx c at_q q ->
  child_expanded m d ctx (RCCluster c) rs -> child_expanded m d at_q (RCCluster q) qs ->
  exists regs, seen_from m c regs rs /\ seen_from m q regs qs.
Proof. intros m d ctx c at_q q rs qs U. exact (shared_children m d U ctx c at_q q rs qs). Qed.
Print Assumptions C101_clusters.

(** Registers: the same fields. *)
Theorem C101_registers : forall m d ctx r at_q q rs qs, unambiguous d -> register_source d ctx r at_q q ->
  register_expanded m d ctx r rs -> register_expanded m d at_q q qs -> exists fs, Forall (fun y => r_fields y = fs) (rs ++ qs).
Proof. intros m d ctx r at_q q rs qs U. exact (shared_fields m d U ctx r at_q q rs qs). Qed.
Print Assumptions C101_registers.

(** Fields: the same enumerated values. *)
Theorem C101_fields : forall m d ctx f at_q q fs qs, unambiguous d -> field_source d ctx f at_q q ->
  field_expanded m d ctx f fs -> field_expanded m d at_q q qs -> exists evs, Forall (fun y => f_enumerated_values y = evs) (fs ++ qs).
Proof. intros m d ctx f at_q q fs qs U. exact (shared_values m d U ctx f at_q q fs qs). Qed.
Print Assumptions C101_fields.

(** The two timers; a field and a register of the first; two clusters. *)
Definition timer (n : nat) : peripheral := nth n (d_peripherals timers) (Single (a_peripheral "" 0 None None)).
Definition timer_CR : register := Single (a_register "CR" 0 (Some
  [Single (a_field "EN" 0 1 [EnumeratedValues (Some "ev") None None [on]] None);
   Array (a_field "IE%s" 4 1 [] (Some "EN")) (times 2 1);
   Single (a_field "X" 8 1 [EnumeratedValues None None (Some "ev") []] None)]) None)%string.
Definition two_clusters : device := a_device [Single (a_peripheral "P" 0 (Some
  [RCCluster (Single (a_cluster "A" 16 [RCRegister (Array (a_register "R%s" 4 None None) (times 2 4))] None));
   RCCluster (Single (a_cluster "B" 64 [] (Some "A")))]) None)]%string.
Definition two_clusters_index : index := Eval vm_compute in ix_of (index_create two_clusters).
Lemma two_clusters_unambiguous : unambiguous two_clusters.
Proof.
  apply (keys_unambiguous two_clusters two_clusters_index); [vm_compute; reflexivity| |].
  - vm_compute.
    repeat (constructor; [cbn [In]; intros H; repeat (destruct H as [H|H]; [discriminate|]); exact H|]). constructor.
  - intros q q' x y I I' E1 E2. unfold two_clusters_index in *. cbn [In] in *.
    repeat (destruct I as [I|I]; [discriminate I|]). contradiction.
Qed.
Lemma timer_CR_placed : register_placed timers ["T0"; "CR"]%string timer_CR.
Proof.
  exists ["T0"%string], "CR"%string, (or_empty (p_registers (info (timer 0)))). split; [reflexivity|]. split.
  - apply cp_peripheral. exists "T0"%string. split; [reflexivity|]. split; [now left|now left].
  - split; [now left|now left].
Qed.
Example C101_example :
  (unambiguous timers /\ expand Debug 6 timers = Ok timers_expanded /\ peripheral_source timers (timer 1) (timer 0) /\
    p_registers (info (timer 0)) <> None) /\
  register_source timers ["T0"; "CH%s"; "IN"]%string (Single (a_register "Q" 0 None (Some "T0.CR"%string))) ["T0"%string] timer_CR /\
  field_source timers ["T0"; "CR"]%string (Array (a_field "IE%s" 4 1 [] (Some "EN"%string)) (times 2 1)) ["T0"; "CR"]%string
    (Single (a_field "EN" 0 1 [EnumeratedValues (Some "ev"%string) None None [on]] None)) /\
  unambiguous two_clusters /\
  cluster_source two_clusters ["P"%string] (Single (a_cluster "B" 64 [] (Some "A"%string))) ["P"%string]
    (Single (a_cluster "A" 16 [RCRegister (Array (a_register "R%s" 4 None None) (times 2 4))] None)) /\
  exists e, expand Debug 3 two_clusters = Ok e /\ register_names e =
    [("P", [("A_R0", 20); ("A_R1", 24); ("B_R0", 68); ("B_R1", 72)])]%string.
Proof.
  split; [|split; [|split; [|split; [|split]]]].
  - split; [exact timers_unambiguous|]. split; [exact (proj1 timers_ok)|]. split; [|discriminate]. exists []. split; [|split; [reflexivity|constructor]].
    cbn. apply fo_step; [|discriminate|constructor]. split; [reflexivity|]. exists "T0"%string. split; [reflexivity|]. split; [now left|now left].
  - exists []. split; [|split; [reflexivity|constructor]]. cbn. apply fo_step; [|discriminate|constructor]. split; [|exact timer_CR_placed].
    exists ["T0"; "CR"]%string. split; [apply cut_split; reflexivity|]. right. split; [cbn; auto|reflexivity].
  - exists []. split; [|split; [reflexivity|constructor]]. cbn. apply fo_step; [|discriminate|constructor]. split.
    + exists ["EN"%string]. split; [apply cut_split; reflexivity|]. left. exists "EN"%string. now split.
    + exists ["T0"; "CR"]%string, "EN"%string, timer_CR. split; [reflexivity|]. split; [exact timer_CR_placed|]. split; [now left|now left].
  - exact two_clusters_unambiguous.
  - exists []. split; [|split; [reflexivity|constructor]]. cbn. apply fo_step; [|discriminate|constructor]. split.
    + exists ["A"%string]. split; [apply cut_split; reflexivity|]. left. exists "A"%string. now split.
    + exists ["P"%string], "A"%string. eexists. split; [reflexivity|]. split.
      * apply cp_peripheral. exists "P"%string. split; [reflexivity|]. split; [now left|now left].
      * split; [now left|now left].
  - destruct (expand Debug 3 two_clusters) as [e| |] eqn:E; vm_compute in E; try discriminate E. injection E as <-. eexists. split; reflexivity.
Qed.
