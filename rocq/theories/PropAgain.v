(** C79: expanded devices written and read again; C80: parsed and expanded devices in serde form. *)
From Verif Require Import Base BaseFacts Num Types Names Validate Arrays Config Sort Xml Encode Parse Expand SpecArray SpecValidate ValidateProofs SpecXml
  SpecParse SpecRound FitProofs RoundProofs SpecDerive SpecExpand PropExpand PropParse PropRound PropValidate SpecCause PropCause StayProofs Serde SpecSerde SerdeProofs PropSerde
  SpecAgain AgainProofs SurviveProofs SpecProps FillProofs SpecFlat Top TopProofs SpecMarkup MarkupProofs MarkupOrder PropTop.
From Verif Require PropOrder.
Import ListNotations.

(** ** C79: what was read and expanded is, if still valid, written and read back exactly *)
Theorem C79_reread : forall m1 m2 m3 m4 fuel conv cfg pcfg n d e,
  no_cases cfg -> in_place cfg -> pc_ignore_enums pcfg = false -> no_blanks n ->
  device_parse m1 pcfg n = Ok d -> (forall f, in_device d (EField f) -> can_write f) ->
  (forall s a, array_in_device d s a -> tidy_array a) ->
  expand m2 fuel d = Ok e -> device_validate_all (pc_level pcfg) e = Ok tt ->
  exists n', device_encode m3 conv cfg e = Ok n' /\ device_parse m4 pcfg n' = Ok e.
Proof.
  intros m1 m2 m3 m4 fuel conv cfg pcfg n d e NC IP IE NB P W T E V. apply C41_round_trip; auto.
  - eapply expanded_fits; [exact (device_read m1 pcfg n d NB P W)|exact T|exact (C37_meaning _ _ _ _ E)|]. now apply C53_device_tree.
  - intros s a A. destruct (flat_no_arrays _ _ _ (C32_flat _ _ _ _ E) A).
Qed.
Print Assumptions C79_reread.
(** Without references, and below level Strict, the result is always valid. *)
Theorem C79_plain : forall m1 m2 m3 m4 fuel conv cfg pcfg n d e,
  no_cases cfg -> in_place cfg -> pc_ignore_enums pcfg = false -> pc_level pcfg = Weak -> no_blanks n ->
  device_parse m1 pcfg n = Ok d -> (forall f, in_device d (EField f) -> can_write f) ->
  (forall s a, array_in_device d s a -> tidy_array a) ->
  (forall s, ~ field_reference d s) -> (forall s, ~ other_reference d s) -> expand m2 fuel d = Ok e ->
  exists n', device_encode m3 conv cfg e = Ok n' /\ device_parse m4 pcfg n' = Ok e.
Proof.
  intros m1 m2 m3 m4 fuel conv cfg pcfg n d e NC IP IE L NB P W T NF NO E.
  apply (C79_reread m1 m2 m3 m4 fuel conv cfg pcfg n d e); auto. pose proof (device_read m1 pcfg n d NB P W) as F.
  rewrite L in *. apply (C61_stays_valid Weak m2 fuel d e); auto; [discriminate|apply C44_validate_all in P; now rewrite L in P|].
  eapply expanded_some; [exact F|exact T|exact (C37_meaning _ _ _ _ E)|].
  destruct F as (_ & _ & _ & _ & _ & _ & _ & _ & _ & _ & _ & _ & _ & _ & V). apply V. now left.
Qed.
Print Assumptions C79_plain.

Definition weakly : pconfig := {| pc_level := Weak; pc_expand := false; pc_expand_properties := false; pc_ignore_enums := false |}.
Definition dv (r : res device) : device :=
  match r with
  | Ok d => d
  | _ => Device None None "" None "" "" None None None None 0 0 (RegProps None None None None None) [] "" "" ""
  end.
Definition opened : device := Eval vm_compute in dv (expand Debug 20 described).
Lemma opened_ok : expand Debug 20 described = Ok opened.
Proof. vm_compute. reflexivity. Qed.
Lemma described_tidy s a : array_in_device described s a -> tidy_array a.
Proof.
  intros H. apply device_dim_in in H. cbn in H.
  repeat (destruct H as [<-|H]; [split; [cbn; lia|]; intros is E; injection E as <-;
    repeat (apply Forall_cons; [apply all_edged; [discriminate|reflexivity]|]); apply Forall_nil|]). destruct H.
Qed.
Example C79_example : no_blanks doc /\ device_parse Debug strictly doc = Ok described /\
  (forall f, in_device described (EField f) -> can_write f) /\ (forall s a, array_in_device described s a -> tidy_array a) /\
  expand Debug 20 described = Ok opened /\ device_validate_all Strict opened = Ok tt /\ opened <> described.
Proof.
  conjs; [apply no_blanksb_ok; reflexivity|exact described_ok|exact described_writes|exact described_tidy|exact opened_ok|vm_compute; reflexivity|discriminate].
Qed.

(** The same after filling in the register properties, and after filling in and expanding, as parse_with_config does it. *)
Theorem C79_filled : forall m1 m3 m4 conv cfg pcfg n d,
  no_cases cfg -> in_place cfg -> pc_ignore_enums pcfg = false -> no_blanks n ->
  device_parse m1 pcfg n = Ok d -> (forall f, in_device d (EField f) -> can_write f) ->
  (forall s a, array_in_device d s a -> calm m3 a) -> device_validate_all (pc_level pcfg) (expand_properties d) = Ok tt ->
  exists n', device_encode m3 conv cfg (expand_properties d) = Ok n' /\ device_parse m4 pcfg n' = Ok (expand_properties d).
Proof.
  intros m1 m3 m4 conv cfg pcfg n d NC IP IE NB P W T V. destruct (C39_filled d) as [S F]. apply C41_round_trip; auto.
  - eapply filled_device; [exact (device_read m1 pcfg n d NB P W)|exact S|exact F|]. now apply C53_device_tree.
  - intros s a A. apply (T s). eapply filled_device_arrays; eassumption.
Qed.
Print Assumptions C79_filled.
Theorem C79_both : forall m1 m2 m3 m4 fuel conv cfg pcfg n d e,
  no_cases cfg -> in_place cfg -> pc_ignore_enums pcfg = false -> no_blanks n ->
  device_parse m1 pcfg n = Ok d -> (forall f, in_device d (EField f) -> can_write f) ->
  (forall s a, array_in_device d s a -> tidy_array a) ->
  expand m2 fuel (expand_properties d) = Ok e -> device_validate_all (pc_level pcfg) e = Ok tt ->
  exists n', device_encode m3 conv cfg e = Ok n' /\ device_parse m4 pcfg n' = Ok e.
Proof.
  intros m1 m2 m3 m4 fuel conv cfg pcfg n d e NC IP IE NB P W T E V. destruct (C39_filled d) as [S F].
  pose proof (device_read m1 pcfg n d NB P W) as D. apply C41_round_trip; auto.
  - apply flat_upgrade; [exact (C32_flat _ _ _ _ E)| | |now apply C53_device_tree].
    + eapply expanded_fits; [|intros s a A; apply (T s); eapply filled_device_arrays; eassumption|exact (C37_meaning _ _ _ _ E)|intros x _; apply no_checks].
      eapply filled_device; [exact (lower_device _ _ D)|exact S|exact F|intros x _; apply no_checks].
    + destruct (C37_meaning _ _ _ _ E) as (S' & _). unfold same_but_peripherals in S, S'. 
      replace (d_description e) with (d_description d) by (destruct S as (_ & _ & _ & _ & _ & X & _), S' as (_ & _ & _ & _ & _ & Y & _); now rewrite Y, X). apply D.
  - intros s a A. destruct (flat_no_arrays _ _ _ (C32_flat _ _ _ _ E) A).
Qed.
Print Assumptions C79_both.
(** As texts: a file read with expansion, filled in or not, written, and read with or without expansion. *)
Theorem C79_files : forall m1 m3 m4 fuel1 fuel2 conv print document cfg l x y s d e,
  let read x y := {| pc_level := l; pc_expand := x; pc_expand_properties := y; pc_ignore_enums := false |} in
  no_cases cfg -> in_place cfg ->
  (forall root n, document (trim_utf8_bom s) = Ok root -> In n (children root) -> no_blanks n) ->
  (forall n, device_encode m3 conv cfg e = Ok n -> agree print document n) ->
  parse_with_config m1 fuel1 document (read false false) s = Ok d ->
  (forall f, in_device d (EField f) -> can_write f) -> (forall s a, array_in_device d s a -> tidy_array a) ->
  parse_with_config m1 fuel1 document (read true y) s = Ok e -> device_validate_all l e = Ok tt ->
  exists t, encode_with_config m3 conv print e cfg = Ok t /\ parse_with_config m4 (S fuel2) document (read x false) t = Ok e.
Proof.
  intros m1 m3 m4 fuel1 fuel2 conv print document cfg l x y s d e read NC IP NB G P W T E V.
  destruct (entry_cases _ _ _ _ _ _ P) as (root & n & d0 & R1 & R2 & R3 & R4). cbn in R4. injection R4 as ->.
  destruct (entry_cases _ _ _ _ _ _ E) as (root' & n' & d' & Q1 & Q2 & Q3 & Q4). rewrite R1 in Q1. injection Q1 as <-. rewrite R2 in Q2. injection Q2 as <-.
  change (device_parse m1 (read true y) n) with (device_parse m1 (read false false) n) in Q3. rewrite R3 in Q3. injection Q3 as <-. cbn in Q4.
  assert (N : no_blanks n).
  { eapply NB; [exact R1|]. unfold get_child in R2. apply find_first_some in R2 as (l1 & l2 & Q & _). rewrite Q. apply in_or_app. right. now left. }
  assert (Z : exists t, device_encode m3 conv cfg e = Ok t /\ device_parse m4 (read x false) t = Ok e).
  { destruct y; [eapply (C79_both m1 m1 m3 m4 fuel1 conv cfg (read x false) n d)|eapply (C79_reread m1 m1 m3 m4 fuel1 conv cfg (read x false) n d)]; auto. }
  destruct Z as (t & Et & Pt). exists (print t). unfold encode_with_config. rewrite Et. split; [reflexivity|].
  rewrite (agree_read _ _ _ _ _ _ (G t Et)), Pt; [|exact (proj1 (PropOrder.C74_device _ _ _ _ _ Et))]. cbn [bind pc_expand pc_expand_properties read].
  destruct x; [|reflexivity]. apply C35_identity. destruct y; eapply C32_flat; exact Q4.
Qed.
Print Assumptions C79_files.
(** A device with a default size, and an array of registers without a size of its own. *)
Definition bare_doc : xml :=
  Elem "device" [("schemaVersion", "1.3")]%string
    [leaf "name" "DEV"; leaf "version" "1"; leaf "description" "d"; leaf "addressUnitBits" "8"; leaf "width" "32"; leaf "size" "16";
     Elem "peripherals" [] [Elem "peripheral" [] [leaf "name" "P"; leaf "baseAddress" "0x40000000";
       Elem "registers" [] [Elem "register" [] [leaf "dim" "2"; leaf "dimIncrement" "4"; leaf "dimIndex" "A,B"; leaf "name" "CR%s";
         leaf "addressOffset" "0x10"; Elem "fields" [] [doc_field []]]]]]].
Definition bare_read : device := Eval vm_compute in dv (device_parse Debug strictly bare_doc).
Definition bare_opened : device := Eval vm_compute in dv (expand Debug 20 (expand_properties bare_read)).
Definition bare_written : xml := Eval vm_compute in match device_encode Debug (fun _ s => s) config_default bare_opened with Ok n => n | _ => Misc end.
Definition bare_file : string := Eval vm_compute in write_text bare_doc.
Definition bare_root : xml := Eval vm_compute in match read_text bare_file with Ok n => n | _ => Misc end.
Example C79_filled_example : no_blanks bare_doc /\ device_parse Debug strictly bare_doc = Ok bare_read /\
  (forall f, in_device bare_read (EField f) -> can_write f) /\
  (forall s a, array_in_device bare_read s a -> tidy_array a) /\ (forall m s a, array_in_device bare_read s a -> calm m a) /\
  device_validate_all Strict (expand_properties bare_read) = Ok tt /\ expand_properties bare_read <> bare_read /\
  expand Debug 20 (expand_properties bare_read) = Ok bare_opened /\ expand Debug 20 bare_read <> Ok bare_opened /\ device_validate_all Strict bare_opened = Ok tt.
Proof.
  split; [apply no_blanksb_ok; reflexivity|]. split; [vm_compute; reflexivity|]. split.
  { intros f H. apply device_field_in in H. cbn in H. repeat (destruct H as [<-|H]; [unfold can_write; cbn; lia|]). destruct H. }
  split.
  { intros s a H. apply device_dim_in in H. cbn in H.
    repeat (destruct H as [<-|H]; [split; [cbn; lia|]; intros is E; injection E as <-;
      repeat (apply Forall_cons; [apply all_edged; [discriminate|reflexivity]|]); apply Forall_nil|]). destruct H. }
  split.
  { intros m s a H. apply device_dim_in in H. cbn in H. intros _ is E [I _].
    repeat (destruct H as [<-|H]; [cbn in E; injection E as <-; cbn in I; repeat (destruct I as [I|I]; [discriminate|]); destruct I|]). destruct H. }
  split; [vm_compute; reflexivity|]. split; [intros E; vm_compute in E; discriminate E|]. split; [vm_compute; reflexivity|].
  split; [intros E; vm_compute in E; discriminate E|]. vm_compute; reflexivity.
Qed.
Example C79_files_example : (forall root n, read_text (trim_utf8_bom bare_file) = Ok root -> In n (children root) -> no_blanks n) /\
  parse_with_config Debug 20 read_text (asks false false) bare_file = Ok bare_read /\
  parse_with_config Debug 20 read_text (asks true true) bare_file = Ok bare_opened /\
  forall n, device_encode Debug (fun _ s => s) config_default bare_opened = Ok n -> agree write_text read_text n.
Proof.
  split.
  { intros root n E I. assert (R : read_text (trim_utf8_bom bare_file) = Ok bare_root) by (vm_compute; reflexivity). rewrite R in E. injection E as <-.
    destruct I as [<-|[]]; apply no_blanksb_ok; vm_compute; reflexivity. }
  split; [vm_compute; reflexivity|]. split; [vm_compute; reflexivity|]. intros n E. apply (text_agree _ _ _ _ _ E).
  assert (W : device_encode Debug (fun _ s => s) config_default bare_opened = Ok bare_written) by (vm_compute; reflexivity).
  rewrite W in E. injection E as <-. apply plain_treeb_ok. vm_compute. reflexivity.
Qed.

(** The conditions are needed. A narrow register derived from a wide one: the written file is refused. *)
Definition rewritten (n : xml) : res device :=
  let* d := device_parse Debug weakly n in let* e := expand Debug 20 d in
  let* n' := device_encode Debug (fun _ s => s) config_default e in device_parse Debug weakly n'.
Definition expanded_of (n : xml) : res device := let* d := device_parse Debug weakly n in expand Debug 20 d.
Theorem C79_invalid_refuted : exists n e, no_blanks n /\ expanded_of n = Ok e /\ exists x, rewritten n = Err x.
Proof.
  exists (doc_with [Elem "register" [] [leaf "name" "A"; leaf "addressOffset" "0"; leaf "size" "32"; leaf "resetValue" "256"];
    Elem "register" [("derivedFrom", "A")]%string [leaf "name" "B"; leaf "addressOffset" "4"; leaf "size" "8"]]).
  eexists. split; [apply no_blanksb_ok; reflexivity|]. split; [vm_compute; reflexivity|]. eexists. vm_compute. reflexivity.
Qed.
Print Assumptions C79_invalid_refuted.
(** White space around an index: the instance comes back with another name. *)
Theorem C79_blank_index_refuted : exists n e e', no_blanks n /\ expanded_of n = Ok e /\ device_validate_all Weak e = Ok tt /\ rewritten n = Ok e' /\ e' <> e.
Proof.
  exists (doc_with [Elem "register" [] [leaf "dim" "2"; leaf "dimIncrement" "4"; leaf "dimIndex" "A, B"; leaf "name" "%s"; leaf "addressOffset" "0"]]).
  eexists. eexists. split; [apply no_blanksb_ok; reflexivity|]. split; [vm_compute; reflexivity|]. split; [vm_compute; reflexivity|].
  split; [vm_compute; reflexivity|discriminate].
Qed.
Print Assumptions C79_blank_index_refuted.
(** An array of fields without instances: an empty list of fields comes back as none. *)
Theorem C79_no_instance_refuted : exists n e e', no_blanks n /\ expanded_of n = Ok e /\ device_validate_all Weak e = Ok tt /\ rewritten n = Ok e' /\ e' <> e.
Proof.
  exists (doc_with [Elem "register" [] [leaf "name" "A"; leaf "addressOffset" "0";
    Elem "fields" [] [Elem "field" [] [leaf "dim" "0"; leaf "dimIncrement" "4"; leaf "name" "F%s"; leaf "bitOffset" "0"; leaf "bitWidth" "1"]]]]).
  eexists. eexists. split; [apply no_blanksb_ok; reflexivity|]. split; [vm_compute; reflexivity|]. split; [vm_compute; reflexivity|].
  split; [vm_compute; reflexivity|discriminate].
Qed.
Print Assumptions C79_no_instance_refuted.

(** ** C80: parsed and expanded devices in serde form *)
Theorem C80_parsed : forall m1 m2 m3 pcfg n d, device_parse m1 pcfg n = Ok d ->
  (forall f, in_device d (EField f) -> bits_in m2 (f_bit_range f)) ->
  exists v, device_put m2 d = Ok v /\ device_get m3 v = Ok (b_device d).
Proof.
  intros m1 m2 m3 pcfg n d P W. apply C50_round_trip. eapply device_more; [|eapply device_num; [|exact P]]; [|exact (parsed_ranged m1)].
  cbv beta. intros f I _. now apply W.
Qed.
Print Assumptions C80_parsed.
Theorem C80_parsed_checked : forall m pcfg n d, device_parse Debug pcfg n = Ok d ->
  exists v, device_put Release d = Ok v /\ device_get m v = Ok (b_device d).
Proof.
  intros m pcfg n d P. apply C50_round_trip. eapply device_more; [|eapply device_num; [|exact P]]; [|exact parsed_checked].
  cbv beta. intros f _ (A & B & C). split; [exact A|]. split; [exact B|]. intros T. specialize (C T). split; [apply C|]. split; [apply C|discriminate].
Qed.
Print Assumptions C80_parsed_checked.
Theorem C80_expanded : forall m1 m2 m3 m4 fuel pcfg n d e, device_parse m1 pcfg n = Ok d ->
  (forall f, in_device d (EField f) -> bits_in m3 (f_bit_range f)) -> expand m2 fuel d = Ok e ->
  exists v, device_put m3 e = Ok v /\ device_get m4 v = Ok (with_header e).
Proof.
  intros m1 m2 m3 m4 fuel pcfg n d e P W E. rewrite <- (b_device_flat e (C32_flat _ _ _ _ E)). apply C50_round_trip.
  eapply (expanded_holds indexes_in (bits_in m3) m2 d); [| |exact (C37_meaning _ _ _ _ E)].
  - eapply device_more; [|eapply device_num; [|exact P]]; [|exact (parsed_ranged m1)]. cbv beta. intros f I _. now apply W.
  - intros b o (A & B & _) O. split; [exact O|]. split; [exact B|]. intros T. now destruct T.
Qed.
Print Assumptions C80_expanded.
Theorem C80_expanded_checked : forall m2 m4 fuel pcfg n d e, device_parse Debug pcfg n = Ok d -> expand m2 fuel d = Ok e ->
  exists v, device_put Release e = Ok v /\ device_get m4 v = Ok (with_header e).
Proof.
  intros m2 m4 fuel pcfg n d e P E. rewrite <- (b_device_flat e (C32_flat _ _ _ _ E)). apply C50_round_trip.
  eapply (expanded_holds indexes_in (bits_in Release) m2 d); [| |exact (C37_meaning _ _ _ _ E)].
  - eapply device_more; [|eapply device_num; [|exact P]]; [|exact parsed_checked].
    cbv beta. intros f _ (A & B & C). split; [exact A|]. split; [exact B|]. intros T. specialize (C T). split; [apply C|]. split; [apply C|discriminate].
  - intros b o (A & B & _) O. split; [exact O|]. split; [exact B|]. intros T. now destruct T.
Qed.
Print Assumptions C80_expanded_checked.
Example C80_example : device_parse Debug strictly doc = Ok described /\ expand Debug 20 described = Ok opened /\
  (exists v, device_put Debug opened = Ok v /\ device_get Debug v = Ok (with_header opened)) /\ with_header opened <> opened.
Proof.
  conjs; [exact described_ok|exact opened_ok| |discriminate]. eapply (C80_expanded Debug Debug Debug Debug 20 strictly doc); [exact described_ok| |exact opened_ok].
  intros f H. apply device_field_in in H. cbn in H. repeat (destruct H as [<-|H]; [unfold bits_in; cbn; lia|]). destruct H.
Qed.
(** The other way round: a device read from the serde form and expanded also survives. *)
Theorem C80_deserialised : forall m2 m4 fuel v d e, device_get Debug v = Ok d -> expand m2 fuel d = Ok e ->
  exists w, device_put Release e = Ok w /\ device_get m4 w = Ok e.
Proof.
  intros m2 m4 fuel v d e G E. pose proof (C32_flat _ _ _ _ E) as F. pose proof (C37_meaning _ _ _ _ E) as M.
  destruct (C64_ranges _ _ _ G) as [_ U].
  assert (H : with_header e = e).
  { destruct M as (S & _). destruct S as (_ & _ & _ & _ & _ & _ & _ & _ & _ & _ & _ & _ & _ & S1 & S2 & S3). destruct U as (U1 & U2 & U3).
    destruct e. unfold with_header. cbn in *. congruence. }
  assert (X : device_in Release e); [|destruct (C50_round_trip Release m4 e X) as (w & A & B); rewrite (b_device_flat e F), H in B; eauto].
  eapply (expanded_holds (fun _ => True) (bits_in Release) m2 d); [| |exact M].
  - eapply device_more; [|exact (C64_checked _ _ G)].
    cbv beta. intros f _ (A & B & C). split; [exact A|]. split; [exact B|]. intros T. specialize (C T). split; [apply C|]. split; [apply C|discriminate].
  - intros b o (A & B & _) O. split; [exact O|]. split; [exact B|]. intros T. now destruct T.
Qed.
Print Assumptions C80_deserialised.
Definition opened_headed : device := Eval vm_compute in dv (expand Debug 20 headed).
Example C80_deserialised_example : device_get Debug described_form = Ok headed /\ expand Debug 20 headed = Ok opened_headed /\ opened_headed <> headed.
Proof. split; [apply C64_example|]. split; [vm_compute; reflexivity|discriminate]. Qed.
