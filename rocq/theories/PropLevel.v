(** C94: the level of validation decides what is accepted, never what is read. *)
From Verif Require Import BaseFacts Types Validate Xml Parse Expand Top SpecXml SpecValidate SpecParse SpecFault SpecRead ReadProofs
  ValidateProofs SpecLevel LevelProofs PropParse PropValidate.

Definition at_level (l : level) (c : pconfig) : pconfig :=
  {| pc_level := l; pc_expand := pc_expand c; pc_expand_properties := pc_expand_properties c; pc_ignore_enums := pc_ignore_enums c |}.

(** Reading at a level is reading without validation and then asking for everything the level asks for. *)
Theorem C94_level : forall m l cfg n d, device_parse m (at_level l cfg) n = Ok d <->
  device_parse m (at_level Disabled cfg) n = Ok d /\ device_validate_all l d = Ok tt /\ index_values_ok l d /\
  (l = Strict -> header_given n).
Proof.
  intros m l cfg n d. rewrite !device_iff, device_validate_all_ok. cbn [at_level pc_level pc_ignore_enums]. split.
  - intros H. split; [|split; [|split]].
    + apply (device_level m _ l Disabled); [intros; apply element_disabled| |discriminate|exact H].
      intros s a x v _ _ _. exact (element_disabled (EValue v)).
    + apply (device_iff m (at_level l cfg)) in H. exact (C44_valid _ _ _ _ H).
    + exact (device_fine _ _ _ _ _ H).
    + intros L. exact (device_header _ _ _ _ _ L H).
  - intros (H & V & I & G). exact (device_level m _ Disabled l n d V I G H).
Qed.
Print Assumptions C94_level.

Definition no_stricter (k l : level) : Prop := k = Disabled \/ k = l \/ l = Strict.
(** Whatever the options: a text that is read at one level is read at every weaker one, with the same result. *)
Theorem C94_weaker : forall m fuel document k l cfg s d, no_stricter k l ->
  parse_with_config m fuel document (at_level l cfg) s = Ok d -> parse_with_config m fuel document (at_level k cfg) s = Ok d.
Proof.
  intros m fuel document k l cfg s d K H. unfold parse_with_config in *. cbn [at_level pc_expand pc_expand_properties] in *.
  apply bind_ok in H as (root & -> & H). cbn [bind]. apply bind_ok in H as (n & -> & H). cbn [bind].
  apply bind_ok in H as (x & P & H). assert (Q : device_parse m (at_level k cfg) n = Ok x); [|rewrite Q; exact H]. clear H.
  apply C94_level in P as (P & V & I & G).
  assert (W : device_validate_all k x = Ok tt /\ index_values_ok k x /\ (k = Strict -> header_given n)).
  { destruct K as [->|[->|L]].
    - split; [apply C17_device|]. split; [|discriminate]. intros ? ? ? v _ _ _. exact (element_disabled (EValue v)).
    - exact (conj V (conj I G)).
    - subst l. destruct k.
      + split; [apply C17_device|]. split; [|discriminate]. intros ? ? ? v _ _ _. exact (element_disabled (EValue v)).
      + split; [apply C17_device; exact V|]. split; [|discriminate]. intros s' a y v A E J. exact (element_weaker (EValue v) (I s' a y v A E J)).
      + exact (conj V (conj I G)). }
  apply C94_level. exact (conj P W).
Qed.
Print Assumptions C94_weaker.

(** A document whose header is left out, and one with a reset value too large for the register *)
Definition oddly (extra : list xml) (rcs : list xml) : xml :=
  Elem "device" [("schemaVersion", "1.3")]%string
    ([leaf "name" "DEV"] ++ extra ++ [Elem "peripherals" [] [Elem "peripheral" [] [leaf "name" "P"; leaf "baseAddress" "0x40000000";
       Elem "registers" [] rcs]]]).
Definition sloppy : xml := oddly [] [doc_register []].
Definition reads (l : level) (n : xml) : bool := accepted (device_parse Debug (at_level l strictly) n).
Example C94_example : map (fun l => reads l doc) [Disabled; Weak; Strict] = [true; true; true] /\
  map (fun l => reads l sloppy) [Disabled; Weak; Strict] = [true; true; false] /\
  map (fun l => reads l (doc_with [Elem "register" [] [leaf "name" "R"; leaf "addressOffset" "0"; leaf "size" "8"; leaf "resetValue" "256"]]))
    [Disabled; Weak; Strict] = [true; false; false].
Proof. vm_compute. auto. Qed.

(** Validation of the whole tree alone is not enough: it does not look at the values of a dimArrayIndex, nor can it see which
    elements the document lacks. *)
Definition unnumbered : xml := doc_with [doc_register [Elem "dimArrayIndex" [] [Elem "enumeratedValue" [] [leaf "name" "A"]]]].
Theorem C94_tree_refuted : exists m l cfg n d, device_parse m (at_level Disabled cfg) n = Ok d /\ device_validate_all l d = Ok tt /\
  header_given n /\ ~ exists d', device_parse m (at_level l cfg) n = Ok d'.
Proof.
  exists Debug, Strict, strictly, unnumbered.
  destruct (device_parse Debug (at_level Disabled strictly) unnumbered) as [d| |] eqn:E; [|vm_compute in E; discriminate..].
  exists d. split; [reflexivity|]. split; [vm_compute in E; injection E as <-; vm_compute; reflexivity|]. split.
  - split; [exists "1"%string; exists (leaf "version" "1"); split; [now apply XmlFacts.get_child_first|now apply XmlFacts.get_text_content]|].
    split; [exists "d"%string; exists (leaf "description" "d"); split; [now apply XmlFacts.get_child_first|now apply XmlFacts.get_text_content]|].
    split; [exists (leaf "addressUnitBits" "8")|exists (leaf "width" "32")]; now apply XmlFacts.get_child_first.
  - intros (d' & F). vm_compute in F. discriminate F.
Qed.
Print Assumptions C94_tree_refuted.
Example C94_weaker_case : no_stricter Weak Strict /\
  match parse_with_config Debug 9 (fun _ => Ok (Elem "" [] [doc])) (at_level Strict strictly) "x" with
  | Ok d => parse_with_config Debug 9 (fun _ => Ok (Elem "" [] [doc])) (at_level Weak strictly) "x" = Ok d
  | _ => False
  end.
Proof. split; [right; now right|vm_compute; reflexivity]. Qed.
