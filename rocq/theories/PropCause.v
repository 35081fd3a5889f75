(** C58: what makes expansion fail; C61: which devices stay valid when expanded; and
    what name conversions do to references (C57). *)
From Verif Require Import Base BaseFacts Num Types Validate Arrays Config Xml Encode Parse Expand SpecArray SpecValidate SpecParse
  SpecExpand SpecPath PathProofs PropExpand SpecCause CauseProofs StayProofs ValidateProofs PropValidate PropParse.

Definition weakly : pconfig := {| pc_level := Weak; pc_expand := false; pc_expand_properties := false; pc_ignore_enums := false |}.

(** ** C58 *)
(** Enough index texts: no access out of bounds. *)
Theorem C58_bounds : forall m fuel d, (forall n e, array_in_device d n e -> enough e) ->
  expand m fuel d <> Panic OutOfBounds.
Proof. exact expand_bounds. Qed.
Print Assumptions C58_bounds.
(** In particular for every device the parser delivers. *)
Theorem C58_parsed : forall m m' fuel cfg n d, device_parse m cfg n = Ok d -> expand m' fuel d <> Panic OutOfBounds.
Proof.
  intros m m' fuel cfg n d P. apply expand_bounds. intros s e A l El. destruct (C11_arrays _ _ _ _ _ _ P A) as [_ I].
  rewrite (I l El). lia.
Qed.
Print Assumptions C58_parsed.
(** No field reference of the form register.field: no failed unwrap. *)
Theorem C58_unwrap : forall m fuel d, (forall s, field_reference d s -> ~ two_parts s) -> expand m fuel d <> Panic Unwrap.
Proof. exact expand_unwrap. Qed.
Print Assumptions C58_unwrap.
(** Errors come from references, and name one of two things. *)
Theorem C58_errors : forall m fuel d e, expand m fuel d = Err e ->
  (exists k s, e = ESelfDerived k s \/ e = ENotFound k s) /\ exists s, field_reference d s \/ other_reference d s.
Proof. exact expand_error. Qed.
Print Assumptions C58_errors.
(** Without references expansion succeeds, except that a debug build can overflow. *)
Theorem C58_total : forall m d, (forall s, ~ field_reference d s) -> (forall s, ~ other_reference d s) ->
  (forall n e, array_in_device d n e -> enough e) ->
  exists k r, ((exists d', r = Ok d') \/ (m = Debug /\ r = Panic Overflow)) /\
    forall k', (k <= k')%nat -> expand m k' d = r.
Proof. exact expand_total. Qed.
Print Assumptions C58_total.
(** The hypothesis on index texts is needed: a device made by hand. *)
Theorem C58_short_refuted : exists d, (forall s, ~ field_reference d s) /\ (forall s, ~ other_reference d s) /\
  forall m, expand m 3 d = Panic OutOfBounds.
Proof.
  exists (a_device [Array (a_peripheral "P%s" 0 None None) (DimElement 2 4 (Some ["A"]%string) None None)]).
  assert (C : forall rc, ~ child_of (a_device [Array (a_peripheral "P%s" 0 None None) (DimElement 2 4 (Some ["A"]%string) None None)]) rc).
  { intros rc C. induction C as [p rc Ip Ic|c rc C IH Ic]; [|exact IH]. destruct Ip as [<-|[]]. destruct Ic. }
  split; [|split].
  - intros s (f & (r & H & _) & _). exact (C _ H).
  - intros s [(p & Ip & E)|[(c & H & _)|[(r & H & _)|(e & (f & (r & H & _) & _) & _)]]];
      [destruct Ip as [<-|[]]; discriminate|exact (C _ H)..].
  - intros m. destruct m; vm_compute; reflexivity.
Qed.
Print Assumptions C58_short_refuted.

(** Two timers, each with an array of registers with two fields. *)
Definition plain_register_ : register := Array (a_register "CR%s" 0 (Some
  [Single (a_field "EN" 0 1 [EnumeratedValues None None None [on]] None); Array (a_field "IE%s" 4 1 [] None) (times 2 1)]) None)
  (DimElement 2 4 (Some ["A"; "B"]%string) None None).
Definition plain_cluster_ : cluster := Array (a_cluster "CH%s" 64 [RCRegister plain_register_] None) (times 2 64).
Definition plain_timers : device := a_device
  [Array (a_peripheral "T%s" 0 (Some [RCRegister plain_register_; RCCluster plain_cluster_]) None) (times 2 4096)].
Lemma plain_child_of rc : child_of plain_timers rc -> rc = RCRegister plain_register_ \/ rc = RCCluster plain_cluster_.
Proof.
  induction 1 as [p rc Ip Ic|c rc C IH Ic].
  - destruct Ip as [<-|[]]. destruct Ic as [<-|[<-|[]]]; auto.
  - destruct IH as [IH|IH]; [discriminate|]. injection IH as ->. destruct Ic as [<-|[]]. auto.
Qed.
Lemma plain_fields f : field_of plain_timers f -> f = Single (a_field "EN" 0 1 [EnumeratedValues None None None [on]] None) \/
  f = Array (a_field "IE%s" 4 1 [] None) (times 2 1).
Proof.
  intros (r & C & I). destruct (plain_child_of _ C) as [E|E]; [|discriminate]. injection E as ->.
  destruct I as [<-|[<-|[]]]; auto.
Qed.
Lemma plain_no_fields s : ~ field_reference plain_timers s.
Proof. intros (f & F & E). destruct (plain_fields f F) as [->| ->]; discriminate. Qed.
Lemma plain_no_others s : ~ other_reference plain_timers s.
Proof.
  intros [(p & Ip & E)|[(c & H & E)|[(r & H & E)|(e & (f & F & I) & E)]]].
  - destruct Ip as [<-|[]]; discriminate.
  - destruct (plain_child_of _ H) as [K|K]; [discriminate|]. injection K as ->. discriminate.
  - destruct (plain_child_of _ H) as [K|K]; [|discriminate]. injection K as ->. discriminate.
  - destruct (plain_fields f F) as [->| ->]; [destruct I as [<-|[]]; discriminate|destruct I].
Qed.
Lemma plain_enough n e : array_in_device plain_timers n e -> enough e.
Proof.
  assert (R : forall r n e, In r [RCRegister plain_register_; RCCluster plain_cluster_] -> array_in_rc r n e -> enough e).
  { intros r k d [<-|[<-|[]]] A; inversion A as [? ?|? ? ? B|? ?|? rc ? ? I B]; subst.
    - intros l [= <-]. cbn. lia.
    - inversion B as [fs f ? E I]; subst. cbn in E. injection E as <-. destruct I as [I|[I|[]]]; [discriminate|].
      injection I as <- <-. discriminate.
    - discriminate.
    - destruct I as [<-|[]]. inversion B as [? ?|? ? ? C|? ?|? rc ? ? I C]; subst.
      + intros l [= <-]. cbn. lia.
      + inversion C as [fs f ? E I]; subst. cbn in E. injection E as <-. destruct I as [I|[I|[]]]; [discriminate|].
        injection I as <- <-. discriminate. }
  intros A. inversion A as [p ? I|p ? ? I B]; subst; destruct I as [I|[]].
  - injection I as <- <-. discriminate.
  - subst p. inversion B as [rcs rc ? ? E J C]; subst. cbn in E. injection E as <-. eapply R; eassumption.
Qed.
Example C58_example : (forall s, ~ field_reference plain_timers s) /\ (forall s, ~ other_reference plain_timers s) /\
  (forall n e, array_in_device plain_timers n e -> enough e) /\
  exists d', expand Debug 4 plain_timers = Ok d' /\ register_names d' =
    [("T0", [("CRA", 0); ("CRB", 4); ("CH0_CRA", 64); ("CH0_CRB", 68); ("CH1_CRA", 128); ("CH1_CRB", 132)]);
     ("T1", [("CRA", 0); ("CRB", 4); ("CH0_CRA", 64); ("CH0_CRB", 68); ("CH1_CRA", 128); ("CH1_CRB", 132)])]%string.
Proof.
  conjs; [exact plain_no_fields|exact plain_no_others|exact plain_enough|]. eexists. split; vm_compute; reflexivity.
Qed.
(** Both errors, the failed unwrap and the overflow happen. *)
Definition referring (f : option string) (r : option string) (o : N) : device := a_device
  [Single (a_peripheral "T" 0 (Some [RCRegister (Single (a_register "CR" 0 (Some [Single (a_field "EN" 0 1 [] f)]) None));
     RCRegister (Array (a_register "SR%s" o None r) (times 2 4))]) None)].
Example C58_failures :
  expand Debug 9 (referring None (Some "CR"%string) 4294967288) <> Panic Overflow /\
  expand Debug 9 (referring None None 4294967295) = Panic Overflow /\
  accepted (expand Release 9 (referring None None 4294967295)) = true /\
  expand Debug 9 (referring (Some "CR.EN"%string) None 4) = Panic Unwrap /\
  expand Debug 9 (referring (Some "EN"%string) None 4) = Err (ESelfDerived KField "T.CR.EN") /\
  expand Debug 9 (referring None (Some "X"%string) 4) = Err (ENotFound KRegister "X").
Proof. conjs; vm_compute; try discriminate; reflexivity. Qed.

(** ** C61 *)
(** Without references, every element of the expanded device is as valid as before,
    except for the rules on names of level Strict. The device itself needs a peripheral. *)
Theorem C61_stays_valid : forall l m fuel d d', l <> Strict -> (forall s, ~ field_reference d s) -> (forall s, ~ other_reference d s) ->
  device_validate_all l d = Ok tt -> expand m fuel d = Ok d' -> d_peripherals d' <> [] -> device_validate_all l d' = Ok tt.
Proof.
  intros l m fuel d d' L F O V E N. apply C53_device_tree. rewrite C53_device_tree in V. eapply expand_stays; eassumption.
Qed.
Print Assumptions C61_stays_valid.
Example C61_example : device_validate_all Weak plain_timers = Ok tt /\
  exists d', expand Debug 4 plain_timers = Ok d' /\ d_peripherals d' <> [] /\ d' <> plain_timers.
Proof.
  split; [vm_compute; reflexivity|]. eexists. split; [vm_compute; reflexivity|]. split; discriminate.
Qed.
Definition sized (n : string) (size value : option N) (s : option string) : register := Single
  (RegisterInfo n None None None None 0 (RegProps size None None value None) None None None None None s).
Definition spoils (l : level) (d d' : device) : Prop :=
  device_validate_all l d = Ok tt /\ exists e, device_validate_all l d' = Err e.
(** A narrow register derived from a wide one inherits its reset value. *)
Theorem C61_register_refuted : exists d d', (forall m, expand m 9 d = Ok d') /\ spoils Weak d d'.
Proof.
  exists (a_device [Single (a_peripheral "P" 0 (Some
    [RCRegister (sized "A" (Some 32) (Some 256) None); RCRegister (sized "B" (Some 8) None (Some "A"%string))]) None)]).
  eexists. split; [intros []; vm_compute; reflexivity|]. split; [reflexivity|eexists; vm_compute; reflexivity].
Qed.
Print Assumptions C61_register_refuted.
(** A narrow field derived from a wide one inherits its values. *)
Theorem C61_field_refuted : exists d d', (forall m, expand m 9 d = Ok d') /\ spoils Weak d d'.
Proof.
  exists (a_device [Single (a_peripheral "P" 0 (Some [RCRegister (Single (a_register "R" 0 (Some
    [Single (a_field "A" 0 2 [EnumeratedValues None None None [EnumeratedValue "THREE" None (Some 3) None]] None);
     Single (a_field "B" 2 1 [] (Some "A"%string))]) None))]) None)]).
  eexists. split; [intros []; vm_compute; reflexivity|]. split; [reflexivity|eexists; vm_compute; reflexivity].
Qed.
Print Assumptions C61_field_refuted.
(** Filling in properties: a register with a size of its own gets a reset value that does not fit. *)
Theorem C61_filled_refuted : exists d, spoils Weak d (expand_properties d).
Proof.
  exists (a_device [Single (PeripheralInfo "P" None None None None None None None None 0 (RegProps None None None (Some 256) None) None []
     (Some [RCRegister (sized "A" (Some 8) None None)]) None)]).
  split; [reflexivity|eexists; vm_compute; reflexivity].
Qed.
Print Assumptions C61_filled_refuted.
(** An array without instances: the only peripheral disappears. *)
Theorem C61_emptied_refuted : exists d d', (forall m, expand m 9 d = Ok d') /\ spoils Weak d d' /\ d_peripherals d' = [].
Proof.
  exists (a_device [Array (a_peripheral "P%s" 0 None None) (times 0 4)]).
  eexists. split; [intros []; vm_compute; reflexivity|]. split; [split; [reflexivity|eexists; vm_compute; reflexivity]|reflexivity].
Qed.
Print Assumptions C61_emptied_refuted.
(** At level Strict: the instances of an array whose name is only the placeholder have numbers for names. *)
Theorem C61_strict_refuted : exists d d', (forall s, ~ field_reference d s) /\ (forall s, ~ other_reference d s) /\
  (forall m, expand m 9 d = Ok d') /\ spoils Strict d d'.
Proof.
  exists (a_device [Array (a_peripheral "%s" 0 None None) (times 2 4)]). eexists.
  assert (C : forall rc, ~ child_of (a_device [Array (a_peripheral "%s" 0 None None) (times 2 4)]) rc).
  { intros rc C. induction C as [p rc Ip Ic|c rc C IH Ic]; [|exact IH]. destruct Ip as [<-|[]]. destruct Ic. }
  split; [|split; [|split; [intros []; vm_compute; reflexivity|]]].
  - intros s (f & (r & H & _) & _). exact (C _ H).
  - intros s [(p & Ip & E)|[(c & H & _)|[(r & H & _)|(e & (f & (r & H & _) & _) & _)]]];
      [destruct Ip as [<-|[]]; discriminate|exact (C _ H)..].
  - split; [vm_compute; reflexivity|eexists; vm_compute; reflexivity].
Qed.
Print Assumptions C61_strict_refuted.

(** ** C57: converting register names converts the peripheral in a reference too, so that
    a device that can be expanded no longer can after writing and reading. *)
Definition upper (c : ascii) : ascii :=
  let n := nat_of_ascii c in if (97 <=? n)%nat && (n <=? 122)%nat then ascii_of_nat (n - 32) else c.
Fixpoint to_upper (s : string) : string := match s with EmptyString => EmptyString | String c t => String (upper c) (to_upper t) end.
Definition upper_registers : config :=
  Config None UpperHex8 (Unchanged None) UpperHex UpperHex None None UpperHex (RcUnchanged (Unchanged None)) (Some Constant)
    UpperHex LowerHex UpperHex16 UpperHex16 None None (Unchanged None) None None Dec Dec UpperHex None.
Definition lower_device : device := a_device [Single (a_peripheral "Tim" 0 (Some
    [RCRegister (Single (a_register "cr" 0 None None)); RCRegister (Single (a_register "dr" 4 None (Some "Tim.cr"%string)))]) None)].
Definition upper_document : xml := Eval vm_compute in
  match device_encode Debug (fun _ => to_upper) upper_registers lower_device with Ok n => n | _ => Misc end.
Definition upper_device : device := Eval vm_compute in
  match device_parse Debug weakly upper_document with Ok d => d | _ => lower_device end.
Theorem C57_references_refuted : exists d n d', accepted (expand Debug 9 d) = true /\
  device_encode Debug (fun _ => to_upper) upper_registers d = Ok n /\ device_parse Debug weakly n = Ok d' /\
  expand Debug 9 d' = Err (ENotFound KRegister "TIM.CR").
Proof. exists lower_device, upper_document, upper_device. conjs; vm_compute; reflexivity. Qed.
Print Assumptions C57_references_refuted.
