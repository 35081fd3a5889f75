(** C75, C76: which serde form means which description, and the layout of written forms. *)
From Verif Require Import BaseFacts Num Types Arrays Serde SpecNum SpecArray SpecSerde SpecData SerdeProofs SpecRead SpecOrder SpecKeys
  KeyProofs FormProofs PropExpand PropSerde.
Open Scope string_scope.
Open Scope list_scope.

(** ** C75 *)
(** A form is read as [d] exactly if SpecKeys says so. *)
Theorem C75_device : forall m v d, device_get m v = Ok d <-> in_map (device_said m) v d.
Proof. intros m. exact (device_reads m). Qed.
Print Assumptions C75_device.
(** Likewise the parts that can be read on their own. *)
Theorem C75_parts : forall m v,
  (forall p, ma_get (peripheral_get m) v = Ok p <-> array_said (peripheral_said m) v p) /\
  (forall rc, rc_get m v = Ok rc <-> block_said m v rc) /\
  (forall r, ma_get (register_get m) v = Ok r <-> array_said (register_said m) v r) /\
  (forall c, ma_get (cluster_get (rc_get m)) v = Ok c <-> array_said (cluster_said (block_said m)) v c) /\
  (forall f, ma_get (field_get m) v = Ok f <-> array_said (field_said m) v f) /\
  (forall e, evs_get v = Ok e <-> in_fields values_fields values_said v e) /\
  (forall e, ev_get v = Ok e <-> in_fields value_fields value_said v e) /\
  (forall w, wc_get v = Ok w <-> constraint_said v w) /\
  (forall c, cpu_get v = Ok c <-> in_fields cpu_fields cpu_said v c) /\
  (forall a, ab_get v = Ok a <-> in_fields address_block_fields address_block_said v a) /\
  (forall i, it_get v = Ok i <-> in_fields interrupt_fields interrupt_said v i).
Proof.
  intros m v. conjs; intros; try apply reads_iff.
  - apply array_said_iff. intros. apply register_said_iff.
  - apply array_said_iff. intros. apply cluster_said_iff. intros. apply reads_iff.
Qed.
Print Assumptions C75_parts.
(** A form says one thing. *)
Theorem C75_unique : forall m v d d', in_map (device_said m) v d -> in_map (device_said m) v d' -> d = d'.
Proof. intros m v d d' H H'. apply (device_reads m) in H, H'. congruence. Qed.
Print Assumptions C75_unique.
(** What is written says what was meant, in the keys of SpecKeys. *)
Theorem C75_written : forall m m' d, device_in m d -> exists v, device_put m d = Ok v /\ in_map (device_said m') v (b_device d).
Proof.
  intros m m' d H. destruct (C50_round_trip m m' d H) as (v & E & G). exists v. split; [exact E|]. now apply (device_reads m').
Qed.
Print Assumptions C75_written.
Example C75_example : exists v d, in_map (device_said Debug) v d /\ d_name d = "DEV" /\
  map (fun p => p_base_address (info p)) (d_peripherals d) = [1073741824].
Proof.
  exists described_form, headed. split; [apply (device_reads Debug); apply C64_example|]. split; reflexivity.
Qed.
(** A key spelt as in documents is not read; a null is an absent value, but not if the value is required. *)
Example C75_misspelt :
  (forall e, value_said [("name", DStr "A"); ("isDefault", DBool true)] e -> ev_is_default e = None) /\
  value_said [("name", DStr "A"); ("value", DNull)] (EnumeratedValue "A" None None None) /\
  (forall e, ~ value_said [("name", DNull)] e) /\ (forall e, ~ value_said [("name", DStr "A"); ("name", DStr "A")] e).
Proof.
  conjs.
  - intros e [_ _ _ D]. destruct (ev_is_default e); [|reflexivity]. destruct D as (v & D & _). discriminate.
  - constructor; cbn; auto. exists (DStr "A"). split; reflexivity.
  - intros e [(v & E & F) _ _ _]. injection E as <-. discriminate.
  - intros e [(v & E & F) _ _ _]. discriminate.
Qed.
(** A sequence of fields is read like the map, also if it ends early, but not if it is too long. *)
Example C75_sequence :
  in_fields interrupt_fields interrupt_said (DSeq [DStr "I"; DNull; DNum 3]) (Interrupt "I" None 3) /\
  in_fields value_fields value_said (DSeq [DStr "A"; DStr "a"]) (EnumeratedValue "A" (Some "a") None None) /\
  (forall i, ~ in_fields interrupt_fields interrupt_said (DSeq [DStr "I"; DNull]) i) /\
  (forall i, ~ in_fields interrupt_fields interrupt_said (DSeq [DStr "I"; DNull; DNum 3; DNull]) i) /\
  (forall m x, ~ array_said (peripheral_said m) (DSeq [DStr "P"]) x).
Proof.
  conjs.
  - apply interrupt_reads. reflexivity.
  - apply value_reads. reflexivity.
  - intros i H. apply interrupt_reads in H. discriminate.
  - intros i H. apply interrupt_reads in H. discriminate.
  - intros m x H. apply (peripheral_reads m) in H. discriminate.
Qed.

(** ** C76 *)
(** Whatever a device holds, if it is written, its form has the keys of SpecKeys, in that order, none
    of them null. *)
Theorem C76_device : forall m d v, device_put m d = Ok v -> laid (AMap "device") v.
Proof. exact device_laid. Qed.
Print Assumptions C76_device.
Theorem C76_parts : forall m,
  (forall p v, ma_put (peripheral_put m) p = Ok v -> laid (AMap "peripheral") v) /\
  (forall rc v, rc_put m rc = Ok v -> laid (AMap "block") v) /\
  (forall f v, ma_put (field_put m) f = Ok v -> laid (AMap "field") v) /\
  (forall e, laid (AMap "enumeratedValues") (evs_put e)) /\ (forall w, laid (AMap "writeConstraint") (wc_put w)) /\
  (forall c, laid (AMap "cpu") (cpu_put c)) /\ (forall a, laid (AMap "addressBlock") (ab_put a)) /\
  (forall i, laid (AMap "interrupt") (it_put i)).
Proof.
  intros m. conjs; intros; eauto using peripheral_laid, block_laid, field_laid, laid_values, laid_constraint, cpu_laid, address_block_laid, interrupt_laid.
Qed.
Print Assumptions C76_parts.
Example C76_example : exists v, device_put Debug (a_device []) = Ok v /\ laid (AMap "device") v /\
  map fst (entries_of v) = ["name"; "version"; "description"; "addressUnitBits"; "width"; "size"; "resetValue"; "peripherals"].
Proof.
  destruct (device_put Debug (a_device [])) as [v| |] eqn:E; [|vm_compute in E; discriminate..].
  exists v. split; [reflexivity|]. split; [now apply C76_device in E|]. vm_compute in E. injection E as <-. reflexivity.
Qed.
(** Entries out of order, nulls and empty lists are not written. *)
Example C76_not_laid :
  ~ laid (AMap "interrupt") (DMap [("value", DNum 1); ("name", DStr "I")]) /\
  ~ laid (AMap "interrupt") (DMap [("name", DStr "I"); ("description", DNull); ("value", DNum 1)]).
Proof.
  assert (U : forall s, In ("interrupt", s) layouts -> s = must "name" AText ++ may "description" AText ++ must "value" ANumber).
  { intros s I. unfold layouts in I. repeat (apply in_app_or in I as [I|I]; cbn in I);
      repeat (destruct I as [I|I]; [try discriminate; injection I as <-; reflexivity|]); destruct I. }
  split; intros H; inversion H as [| | | | | |t fs es I K]; subst; apply U in I as ->.
  - inversion K.
  - inversion K as [|k s fs v es V K'| |]; subst. inversion K' as [| |k s fs es' K''|k s fs v es' V' K'']; subst; [inversion K''|inversion V'].
Qed.
