(** C73: which document is read as which description. *)
From Verif Require Import BaseFacts Num Types Names Validate Builders Arrays Config Xml Encode Parse SpecNum SpecArray SpecText
  SpecXml SpecValidate SpecParse SpecShape SpecFault SpecRead ReadProofs SpecRound PropParse PropRound.

(** A device element is read as [d] exactly if SpecRead says so: from the elements and attributes
    named there, in the ways given there, and if every level of it is valid. *)
Theorem C73_device : forall m cfg n d,
  device_parse m cfg n = Ok d <-> device_read m (pc_level cfg) (pc_ignore_enums cfg) n d.
Proof. exact device_iff. Qed.
Print Assumptions C73_device.
(** Likewise the elements that can be parsed on their own. *)
Theorem C73_parts : forall m cfg n, let l := pc_level cfg in let g := pc_ignore_enums cfg in
  (forall p, peripheral_parse m cfg n = Ok p <-> array_read l "peripheral" p_name (peripheral_read m l g) n p) /\
  (forall rc, rc_parse m cfg n = Ok rc <-> block_read m l g n rc) /\
  (forall f, field_parse m cfg n = Ok f <-> array_read l "field" f_name (field_read m l g) n f) /\
  (forall c, cpu_parse cfg n = Ok c <-> cpu_read n c) /\
  (forall a, ab_parse cfg n = Ok a <-> address_block_read n a) /\
  (forall i, named "interrupt" n -> it_parse cfg n = Ok i <-> interrupt_read n i) /\
  (forall e, evs_parse cfg n = Ok e <-> values_read l n e) /\
  (forall e, ev_item cfg n = Ok e <-> value_read l n e) /\
  (forall d, de_parse cfg n = Ok d <-> dim_read l n d) /\
  (forall p, rp_parse cfg n = Ok p <-> props_read l n p) /\
  (forall w, wc_parse n = Ok w <-> constraint_read n w) /\
  (forall b, bit_range_parse m n = Ok b <-> bits_read m n b).
Proof.
  intros m cfg n l g. conjs; intros.
  - apply array_iff. intros. now apply peripheral_iff.
  - apply block_read_iff.
  - apply array_iff. intros. now apply field_iff.
  - apply cpu_iff.
  - apply address_block_iff.
  - now apply interrupt_iff.
  - apply values_iff.
  - apply value_iff.
  - apply dim_iff.
  - apply props_iff.
  - apply constraint_iff.
  - apply bits_iff.
Qed.
Print Assumptions C73_parts.
(** A document says one thing. *)
Theorem C73_unique : forall m l g n d d', device_read m l g n d -> device_read m l g n d' -> d = d'.
Proof.
  intros m l g n d d' H H'. pose (cfg := {| pc_level := l; pc_expand := false; pc_expand_properties := false; pc_ignore_enums := g |}).
  apply (device_iff m cfg) in H. apply (device_iff m cfg) in H'. congruence.
Qed.
Print Assumptions C73_unique.
(** What is written says what was meant, in the names of SpecRead. *)
Theorem C73_written : forall m m' conv cfg l d, no_cases cfg -> in_place cfg -> device_fits l d ->
  (forall s e, array_in_device d s e -> calm m e) ->
  exists n, device_encode m conv cfg d = Ok n /\ device_read m' l false n d.
Proof.
  intros m m' conv cfg l d K P F C.
  pose (pcfg := {| pc_level := l; pc_expand := false; pc_expand_properties := false; pc_ignore_enums := false |}).
  destruct (C41_round_trip m m' conv cfg pcfg d K P eq_refl F C) as (n & E & R). exists n. split; [exact E|].
  now apply (device_iff m' pcfg) in R.
Qed.
Print Assumptions C73_written.

Example C73_example : exists d, device_read Debug Strict false doc d /\ d_name d = "DEV"%string /\
  map (fun p => p_base_address (info p)) (d_peripherals d) = [1073741824].
Proof.
  destruct (device_parse Debug strictly doc) as [x| |] eqn:E; [|vm_compute in E; discriminate..].
  exists x. split; [now apply (device_iff Debug strictly)|]. vm_compute in E. injection E as <-. split; reflexivity.
Qed.
(** A misspelt element is not read; one that has to be there is missed. *)
Example C73_misspelt :
  (forall i, field_read Debug Weak false (Elem "field" [] [leaf "name" "F"; leaf "bitRange" "[1:0]"; leaf "acess" "read-only"]) i ->
     f_access i = None) /\
  (forall i, ~ field_read Debug Weak false (Elem "field" [] [leaf "Name" "F"; leaf "bitRange" "[1:0]"]) i).
Proof.
  split.
  - intros i H. destruct (f_access i) eqn:E; [|reflexivity]. destruct H as [_ _ _ A _ _ _ _ _ _]. rewrite E in A.
    destruct A as (c & F & _). apply XmlFacts.get_child_first in F. discriminate.
  - intros i [N _ _ _ _ _ _ _ _ _]. destruct N as (c & F & _). apply XmlFacts.get_child_first in F. discriminate.
Qed.
