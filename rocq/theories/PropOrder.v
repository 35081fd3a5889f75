(** C74: what is written has the elements of the format, in its order. *)
From Verif Require Import BaseFacts Num Types Names Validate Builders Arrays Config Xml Encode Parse SpecXml SpecOrder OrderProofs
  PropParse PropRound.
Open Scope string_scope.
Open Scope list_scope.

(** Whatever a device holds, valid or not, and whatever the configuration: if it is written, the
    document is a device element in the order of SpecOrder, all the way down. *)
Theorem C74_device : forall m conv cfg d n,
  device_encode m conv cfg d = Ok n -> name_of n = "device" /\ in_order n.
Proof. exact device_order. Qed.
Print Assumptions C74_device.
(** Likewise the parts that can be written on their own. *)
Theorem C74_parts : forall m conv cfg,
  (forall p n, peripheral_encode m conv cfg p = Ok n -> name_of n = "peripheral" /\ in_order n) /\
  (forall rc n, rc_encode m conv cfg rc = Ok n ->
     name_of n = match rc with RCRegister _ => "register" | RCCluster _ => "cluster" end /\ in_order n) /\
  (forall f n, field_encode m conv cfg f = Ok n -> name_of n = "field" /\ in_order n) /\
  (forall e, name_of (evs_encode conv cfg e) = "enumeratedValues" /\ in_order (evs_encode conv cfg e)) /\
  (forall i, name_of (it_encode conv cfg i) = "interrupt" /\ in_order (it_encode conv cfg i)) /\
  (forall a, name_of (ab_encode cfg a) = "addressBlock" /\ in_order (ab_encode cfg a)) /\
  (forall c, name_of (cpu_encode c) = "cpu" /\ in_order (cpu_encode c)).
Proof.
  intros m conv cfg. conjs; intros.
  - now apply (peripheral_order m conv cfg p).
  - now apply (rc_order m conv cfg rc).
  - now apply (field_order m conv cfg f).
  - split; [reflexivity|apply values_order].
  - split; [reflexivity|apply interrupt_order].
  - split; [reflexivity|apply block_order].
  - split; [reflexivity|apply cpu_order].
Qed.
Print Assumptions C74_parts.

Example C74_example : exists n, device_encode Debug (fun _ s => s) config_default described = Ok n /\ in_order n /\
  map name_of (children n) = ["name"; "version"; "description"; "addressUnitBits"; "width"; "peripherals"].
Proof.
  destruct (device_encode Debug (fun _ s => s) config_default described) as [n| |] eqn:E; [|vm_compute in E; discriminate..].
  exists n. split; [reflexivity|]. split; [now apply C74_device in E|]. vm_compute in E. injection E as <-. reflexivity.
Qed.
(** An interrupt with its value first, or with two names, is out of order. *)
Example C74_out_of_order :
  ~ in_order (Elem "interrupt" [] [leaf "value" "1"; leaf "name" "I"]) /\
  ~ in_order (Elem "interrupt" [] [leaf "name" "I"; leaf "name" "J"; leaf "value" "1"]) /\
  in_order (Elem "interrupt" [] [leaf "name" "I"; leaf "value" "1"]).
Proof.
  assert (U : forall s, In ("interrupt", s) contents -> s = one "name" ++ opt "description" ++ one "value").
  { intros s I. unfold contents in I. repeat (apply in_app_or in I as [I|I]; cbn in I);
      repeat (destruct I as [I|I]; [try discriminate; injection I as <-; reflexivity|]); destruct I. }
  conjs.
  - intros H. inversion H as [|t a s l I A F O]; subst. apply U in I as ->. inversion F as [|ts t s l I G| | | | |]; subst. cbn in I. intuition discriminate.
  - intros H. inversion H as [|t a s l I A F O]; subst. apply U in I as ->. inversion F as [|ts t s l I G| | | | |]; subst.
    inversion G as [| |ts t s' K|ts t s' k J K| | |]; subst; [inversion K as [|ts t' s'' l' J L| | | | |]; subst|]; cbn in J; intuition discriminate.
  - assert (T : forall t s, ~ In t (map fst contents) -> in_order (leaf t s)) by (intros; now apply io_text).
    apply io_elem with (one "name" ++ opt "description" ++ one "value"); [cbn; tauto|right; right; now split|
      apply fo_once; [now left|]; apply fo_absent; apply fo_once; [now left|]; constructor|].
    constructor; [|constructor; [|constructor]]; apply T; cbn; intuition discriminate.
Qed.
