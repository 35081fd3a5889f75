(** C81: the errors of expansion are true. *)
From Verif Require Import Base BaseFacts Types Arrays ArrayProofs Expand TreeFacts SpecNum SpecArray SpecDerive SpecPath PathProofs
  SpecExpand PlaceProofs ChainProofs MeaningProofs SpecExact ExactProofs ExactReach SpecRefuse RefuseProofs PropExpand PropExact.

(** ** C81 *)
(** An error names a reference of an element that is expanded, which leads to nothing or
    is taken for one's own... *)
Theorem C81_true : forall m fuel d e, expand m fuel d = Err e -> refused d e.
Proof. exact expand_refused. Qed.
Print Assumptions C81_true.
(** ...and where there is such a reference, expansion does not succeed. *)
Theorem C81_never : forall m d e, unambiguous d -> refused d e -> forall fuel d', expand m fuel d <> Ok d'.
Proof. intros m d e U R fuel d'. exact (refused_never m d e fuel d' U R). Qed.
Print Assumptions C81_never.
(** What is reported as not found is not there: no peripheral of that name... *)
Theorem C81_no_peripheral : forall m fuel d s, expand m fuel d = Err (ENotFound KPeripheral s) ->
  forall p n, In p (d_peripherals d) -> is_called p_name p n -> n <> s.
Proof.
  intros m fuel d s H p n I C ->. apply (refused_missing d KPeripheral s (expand_refused _ _ _ _ H) p).
  exists s. auto.
Qed.
Print Assumptions C81_no_peripheral.
(** ...and nothing of that kind at that path, if a path is given. *)
Theorem C81_absent : forall m fuel d s parts, cut "." s parts -> (2 <= List.length parts)%nat ->
  (expand m fuel d = Err (ENotFound KCluster s) -> forall x, ~ cluster_placed d parts x) /\
  (expand m fuel d = Err (ENotFound KRegister s) -> forall x, ~ register_placed d parts x) /\
  (expand m fuel d = Err (ENotFound KField s) -> forall x, ~ field_placed d parts x).
Proof.
  intros m fuel d s parts C L. destruct (refused_absent d s parts C L) as (A & B & E).
  conjs; intros H; apply expand_refused in H; auto.
Qed.
Print Assumptions C81_absent.
(** A peripheral reported as derived from itself is so: its references lead back to it. *)
Theorem C81_loop : forall m fuel d s, expand m fuel d = Err (ESelfDerived KPeripheral s) -> leads d s s.
Proof. intros m fuel d s H. exact (refused_peripheral_self d s (expand_refused _ _ _ _ H)). Qed.
Print Assumptions C81_loop.

(** ** For the other kinds that is false *)
(** T0.A is derived from T1.B, which is derived from its sibling T1.A, which is derived from nothing.
    But T1.A has the name of the register one started from. *)
Definition namesakes : device := a_device
  [Single (a_peripheral "T0" 0 (Some [RCRegister (Single (a_register "A" 0 None (Some "T1.B")))]) None);
   Single (a_peripheral "T1" 256 (Some [RCRegister (Single (a_register "A" 0 None None)); RCRegister (Single (a_register "B" 4 None (Some "A")))]) None)].
Definition namesakes_index : index := Eval vm_compute in ix_of (index_create namesakes).
Lemma namesakes_unambiguous : unambiguous namesakes.
Proof.
  apply (keys_unambiguous namesakes namesakes_index); [vm_compute; reflexivity| |].
  - vm_compute.
    repeat (constructor; [cbn [In]; intros H; repeat (destruct H as [H|H]; [discriminate|]); exact H|]). constructor.
  - intros q q' x y I I' E1 E2. unfold namesakes_index in *. cbn [In] in *.
    repeat (destruct I as [I|I]; [first [discriminate I|injection I; intros; subst]|]); contradiction.
Qed.
Lemma namesakes_error fuel m : expand m (S (S (S fuel))) namesakes = Err (ESelfDerived KRegister "T1.A").
Proof. destruct m; vm_compute; reflexivity. Qed.
Lemma namesakes_plain r : register_placed namesakes ["T1"%string; "A"%string] r -> r_derived_from (info r) = None.
Proof.
  intros P. rewrite (un_registers _ namesakes_unambiguous _ _ (Single (a_register "A" 0 None None)) P); [reflexivity|].
  exists ["T1"%string], "A"%string, [RCRegister (Single (a_register "A" 0 None None)); RCRegister (Single (a_register "B" 4 None (Some "A")))].
  conjs; [reflexivity| |now left|now left].
  apply (cp_peripheral namesakes ["T1"%string] (Single (a_peripheral "T1" 256 (Some [RCRegister (Single (a_register "A" 0 None None)); RCRegister (Single (a_register "B" 4 None (Some "A")))]) None))).
  exists "T1"%string. conjs; [reflexivity|right; now left|now left].
Qed.
Theorem C81_self_refuted :
  ~ (forall m fuel d path, dotless path -> expand m fuel d = Err (ESelfDerived KRegister (glue "." path)) ->
       exists r, register_placed d path r /\ r_derived_from (info r) <> None).
Proof.
  intros H. destruct (H Debug 3%nat namesakes ["T1"%string; "A"%string]) as (r & P & N).
  - repeat constructor; apply no_dot; reflexivity.
  - exact (namesakes_error 0 Debug).
  - exact (N (namesakes_plain r P)).
Qed.
Print Assumptions C81_self_refuted.

(** ** Examples *)
Definition a_peripheral_ring : device := a_device
  [Single (a_peripheral "A" 0 None (Some "B")); Single (a_peripheral "B" 0 None (Some "A"))].
Definition missing_register : device := a_device
  [Single (a_peripheral "T" 0 (Some [RCRegister (Single (a_register "R" 0 None (Some "T.Q")))]) None)].
Definition missing_peripheral_ : device := a_device [Single (a_peripheral "T" 0 None (Some "U"))].
Definition missing_values_ : device := a_device
  [Single (a_peripheral "T" 0 (Some [RCRegister (Single (a_register "R" 0 (Some
     [Single (a_field "F" 0 1 [EnumeratedValues None None (Some "ev") []] None)]) None))]) None)].
Example C81_example :
  expand Debug 6 missing_register = Err (ENotFound KRegister "T.Q") /\ cut "." "T.Q" ["T"%string; "Q"%string] /\
  expand Debug 6 missing_peripheral_ = Err (ENotFound KPeripheral "U") /\
  expand Debug 6 missing_values_ = Err (ENotFound KValues "ev") /\
  expand Debug 6 a_peripheral_ring = Err (ESelfDerived KPeripheral "A") /\
  unambiguous namesakes /\ refused namesakes (ESelfDerived KRegister "T1.A").
Proof.
  conjs; try (vm_compute; reflexivity).
  - apply cut_split. reflexivity.
  - exact namesakes_unambiguous.
  - exact (expand_refused _ _ _ _ (namesakes_error 0 Debug)).
Qed.
