(** C61, C88, C91, C93, C96, C100 for descriptions with derivedFrom: what holds where nothing is derived holds of any
    description in which all that is inherited has been written in place (C103). *)
From Verif Require Import Base BaseFacts Types TreeFacts Derive Arrays Expand SpecArray SpecExpand SpecExact SpecProps SpecLeaves SpecSwap SpecKept SpecFlat SpecRoom SpecComplete SpecCause Validate CompleteProofs CompleteBack PropExpand PropExact PropRoom PropSize PropSwap PropLeaves PropKept PropFind PropCause PropComplete SpecSize.

Lemma completed_ok m fuel d d' e : unambiguous d -> device_completed d d' -> expand m fuel d = Ok e ->
  underived d' /\ expand m fuel d' = Ok e.
Proof.
  intros A C E. destruct (C103_complete _ _ _ _ E) as (d1 & C1 & U & E1). rewrite (C103_unique d A _ _ C C1). now split.
Qed.
Lemma underived_plain d : underived d -> plain_device d.
Proof.
  intros U. eapply Forall_impl; [|exact U]. intros p [D H]. split; [exact D|]. clear D. revert H.
  assert (K : forall rc, underived_child rc -> plain_rc rc).
  { induction rc as [r|c IH] using rc_tree_ind; intros H; inversion H as [? R|? R L]; subst; constructor; [exact R|exact R|].
    rewrite Forall_forall in *. intros x I. exact (IH x I (L x I)). }
  apply Forall_impl, K.
Qed.
Lemma underived_settled d : underived d -> all_fields (settled Debug) d.
Proof.
  intros U. eapply Forall_impl; [|exact U]. intros p [_ H]. revert H.
  assert (K : forall rc, underived_child rc -> fields_below (settled Debug) rc).
  { induction rc as [r|c IH] using rc_tree_ind; intros H; inversion H as [? R F|? R L]; subst; constructor.
    - eapply Forall_impl; [|exact F]. intros f [D _]. split; [exact D|now left].
    - rewrite Forall_forall in *. intros x I. exact (IH x I (L x I)). }
  apply Forall_impl, K.
Qed.

(** Registers that have room once all that is inherited is written in place have it in the expansion. *)
Theorem C96_any : forall bytes fuel d d' e, unambiguous d -> device_completed d d' -> expand Debug fuel d = Ok e ->
  orderly_device bytes d' -> asunder (flat_map (addresses bytes) (d_peripherals e)).
Proof.
  intros bytes fuel d d' e A C E O. destruct (completed_ok _ _ _ _ _ A C E) as [U E'].
  exact (C96_device bytes fuel d' e U E' O).
Qed.
Print Assumptions C96_any.

(** The numbers of peripherals, registers and fields. *)
Theorem C100_any : forall m fuel d d' e, unambiguous d -> device_completed d d' -> expand m fuel d = Ok e ->
  len_N (d_peripherals e) = total (map copies (d_peripherals d')) /\
  total (map (fun q => len_N (listed q)) (d_peripherals e)) =
    total (map (fun p => copies p * total (map count_registers (listed p))) (d_peripherals d')) /\
  total (map (fun q => total (map (fun rc => len_N (listed_fields rc)) (listed q))) (d_peripherals e)) =
    total (map (fun p => copies p * total (map count_fields (listed p))) (d_peripherals d')).
Proof.
  intros m fuel d d' e A C E. destruct (completed_ok _ _ _ _ _ A C E) as [U E']. exact (C100_totals m fuel d' e U E').
Qed.
Print Assumptions C100_any.

(** Properties can be filled in after what is inherited is written in place, before arrays and clusters are gone: it is as
    if they were filled in at the end. *)
Theorem C91_any : forall m fuel d d' e, unambiguous d -> device_completed d d' -> expand m fuel d = Ok e ->
  clusters_add_nothing d' -> expand m fuel (expand_properties d') = Ok (expand_properties e).
Proof.
  intros m fuel d d' e A C E N. destruct (completed_ok _ _ _ _ _ A C E) as [U E'].
  rewrite C91, E'; [reflexivity|exact (underived_plain _ U)|exact N].
Qed.
Print Assumptions C91_any.

(** The same bits belong to fields of the same kind. *)
Theorem C88_any : forall fuel d d' e, unambiguous d -> device_completed d d' -> expand Debug fuel d = Ok e ->
  Forall2 (Forall2 same_bits) (flat_map registers_of_peripheral (d_peripherals d')) (map flat_registers (d_peripherals e)).
Proof.
  intros fuel d d' e A C E. destruct (completed_ok _ _ _ _ _ A C E) as [U E'].
  exact (C88_bits Debug fuel d' e (underived_plain _ U) (underived_settled _ U) E').
Qed.
Print Assumptions C88_any.

(** Where a register is found by name, and what is found. *)
Theorem C93_any : forall m fuel d d' e n x q r, unambiguous d -> device_completed d d' -> expand m fuel d = Ok e ->
  get_peripheral e n = Some q -> get_register (p_children (info q)) x = Some r ->
  exists p ss b kids l s, In p (d_peripherals d') /\ spots p_name p_base_address p ss /\ In (n, b) ss /\
    agrees m (2 ^ 64) b (p_base_address (info q)) /\ p_registers (info p) = Some kids /\ layout kids l /\ In s l /\
    x = glue "_" (s_names s) /\ at_spot m s (info r).
Proof.
  intros m fuel d d' e n x q r A C E. destruct (completed_ok _ _ _ _ _ A C E) as [U E']. exact (C93_found m fuel d' e n x q r U E').
Qed.
Print Assumptions C93_any.

Lemma underived_child_of d rc : underived d -> child_of d rc -> underived_child rc.
Proof.
  intros U H. unfold underived in U. rewrite Forall_forall in U. induction H as [p rc Ip I|c rc _ IH I].
  - destruct (U p Ip) as [_ F]. rewrite Forall_forall in F. exact (F rc I).
  - inversion IH as [|? _ F]; subst. rewrite Forall_forall in F. exact (F rc I).
Qed.
Lemma underived_field_of d f : underived d -> field_of d f -> underived_field f.
Proof.
  intros U (r & H & I). pose proof (underived_child_of d _ U H) as K. inversion K as [? _ F|]; subst.
  rewrite Forall_forall in F. exact (F f I).
Qed.
Lemma underived_silent d : underived d -> (forall s, ~ field_reference d s) /\ (forall s, ~ other_reference d s).
Proof.
  intros U. split; intros s.
  - intros (f & H & E). destruct (underived_field_of d f U H). congruence.
  - intros [(p & I & E)|[(c & H & E)|[(r & H & E)|(e & (f & H & I) & E)]]].
    + unfold underived in U. rewrite Forall_forall in U. destruct (U p I). congruence.
    + pose proof (underived_child_of d _ U H) as K. inversion K; subst. congruence.
    + pose proof (underived_child_of d _ U H) as K. inversion K; subst. congruence.
    + destruct (underived_field_of d f U H) as [_ F]. rewrite Forall_forall in F. specialize (F e I). congruence.
Qed.

(** If the description with all that is inherited written in place is valid, so is the expansion. *)
Theorem C61_any : forall l m fuel d d' e, l <> Strict -> unambiguous d -> device_completed d d' -> expand m fuel d = Ok e ->
  device_validate_all l d' = Ok tt -> d_peripherals e <> [] -> device_validate_all l e = Ok tt.
Proof.
  intros l m fuel d d' e L A C E V N. destruct (completed_ok _ _ _ _ _ A C E) as [U E'].
  destruct (underived_silent _ U) as [F O]. exact (C61_stays_valid l m fuel d' e L F O V E' N).
Qed.
Print Assumptions C61_any.

(** Two timers, the second derived from the first: the completed description has the array twice. *)
Definition pulses : list register_cluster :=
  [RCRegister (Array (a_register "D%s" 4 (Some [Single (a_field "F" 0 8 [] None)]) None) (times 2 4))].
Definition mirrored : device := a_device
  [Single (a_peripheral "T0" 16384 (Some pulses) None); Single (a_peripheral "T1" 20480 None (Some "T0"))].
Definition unmirrored : device := a_device
  [Single (a_peripheral "T0" 16384 (Some pulses) None); Single (a_peripheral "T1" 20480 (Some pulses) None)].
Definition mirrored_index : index := Eval vm_compute in match index_create mirrored with Ok ix => ix | _ => [] end.
Lemma mirrored_unambiguous : unambiguous mirrored.
Proof.
  apply (keys_unambiguous mirrored mirrored_index); [vm_compute; reflexivity| |].
  - vm_compute.
    repeat (constructor; [cbn [In]; intros H; repeat (destruct H as [H|H]; [discriminate|]); exact H|]). constructor.
  - intros q q' x y I I' E1 E2. unfold mirrored_index in *. cbn [In] in *.
    repeat (destruct I as [I|I]; [first [discriminate I|injection I; intros; subst]|]); contradiction.
Qed.
Lemma mirrored_completed : device_completed mirrored unmirrored.
Proof.
  assert (K : forall ctx, Forall2 (child_completed mirrored ctx) pulses pulses).
  { intros ctx. constructor; [|constructor]. constructor.
    exists [], (Array (a_register "D%s" 4 (Some [Single (a_field "F" 0 8 [] None)]) None) (times 2 4)), (ctx ++ ["D%s"%string]), (Some [Single (a_field "F" 0 8 [] None)]).
    conjs; [constructor|apply ChainProofs.register_from_self; reflexivity|apply ChainProofs.origin_none| |reflexivity].
    exists [Single (a_field "F" 0 8 [] None)]. split; [|reflexivity]. constructor; [|constructor].
    exists [], (Single (a_field "F" 0 8 [] None)), ((ctx ++ ["D%s"%string]) ++ ["F"%string]), [].
    conjs; [constructor|apply ChainProofs.field_from_self; reflexivity|apply ChainProofs.origin_none|constructor|reflexivity]. }
  split; [repeat split|]. constructor; [|constructor; [|constructor]].
  - exists [], (Single (a_peripheral "T0" 16384 (Some pulses) None)), ["T0"%string], (Some pulses).
    conjs; [constructor|apply ChainProofs.peripheral_from_self; reflexivity|apply ChainProofs.origin_none| |reflexivity].
    exists pulses. split; [apply K|reflexivity].
  - exists [(["T0"%string], Single (a_peripheral "T0" 16384 (Some pulses) None))], (Single (a_peripheral "T1" 20480 (Some pulses) None)), ["T0"%string], (Some pulses).
    conjs; [| | | |reflexivity].
    + constructor; [|discriminate|constructor]. split; [reflexivity|]. exists "T0"%string. conjs; [reflexivity|now left|now left].
    + exact (ChainProofs.peripheral_from_step (Single (a_peripheral "T1" 20480 None (Some "T0"))) (Single (a_peripheral "T0" 16384 (Some pulses) None)) []
               (Single (a_peripheral "T1" 20480 (Some pulses) None)) (ChainProofs.peripheral_from_self (Single (a_peripheral "T1" 20480 (Some pulses) None)) eq_refl)).
    + left. exists [], (Single (a_peripheral "T0" 16384 (Some pulses) None)). conjs; [reflexivity|reflexivity|constructor].
    + exists pulses. split; [apply K|reflexivity].
Qed.
Example C96_any_example : unambiguous mirrored /\ ~ underived mirrored /\ device_completed mirrored unmirrored /\
  orderly_device four unmirrored /\ clusters_add_nothing unmirrored /\ device_validate_all Weak unmirrored = Ok tt /\
  exists e, expand Debug 4 mirrored = Ok e /\
    flat_map (addresses four) (d_peripherals e) = [(16388, 4); (16392, 4); (20484, 4); (20488, 4)].
Proof.
  conjs; [exact mirrored_unambiguous| |exact mirrored_completed| | |vm_compute; reflexivity|].
  - intros H. inversion H as [|? ? _ H1]. inversion H1 as [|? ? [D _] _]. discriminate D.
  - split; [cbn [unmirrored a_device d_peripherals map]; pairwise|].
    assert (P : orderly_block four pulses).
    { split; [cbn; pairwise|]. constructor; [|constructor]. constructor. right. vm_compute. discriminate. }
    apply Forall_cons; [split; [exact I|exact P]|]. apply Forall_cons; [split; [exact I|exact P]|apply Forall_nil].
  - intros p rs q I E R. destruct I as [<-|[<-|[]]]; injection E as <-; repeat constructor.
  - destruct (expand Debug 4 mirrored) as [e| |] eqn:E; vm_compute in E; try discriminate. injection E as <-. eexists. split; reflexivity.
Qed.
