(** C11, C44, C45, C46, C48: what can be relied on about every parsed document. *)
From Coq Require Import Permutation.
From Verif Require Import BaseFacts Num Types Names Validate Builders Arrays Xml Parse SpecNum SpecArray InstanceProofs
  SpecValidate ValidateProofs SpecText TrimProofs SpecXml XmlFacts SpecParse ParseProofs IgnoreProofs PanicProofs SpecLayout LayoutProofs.

(** A document used in the examples. *)
Definition leaf (k s : string) : xml := Elem k [] [Text s].
Definition doc_value (name v : string) : xml := Elem "enumeratedValue" [] [leaf "name" name; leaf "value" v].
Definition doc_field (extra : list xml) : xml :=
  Elem "field" [] ([leaf "name" "F"; leaf "bitRange" "[7:4]";
    Elem "writeConstraint" [] [Elem "range" [] [leaf "minimum" "1"; leaf "maximum" "0xF"]];
    Elem "enumeratedValues" [] [leaf "name" "E"; doc_value "ON" "1"; doc_value "OFF" "#0"]] ++ extra).
Definition doc_register (extra : list xml) : xml :=
  Elem "register" [] ([leaf "dim" "2"; leaf "dimIncrement" "4"; leaf "dimIndex" "A,B"; leaf "name" "CR%s";
    leaf "addressOffset" "0x10"; leaf "size" "32"; Elem "fields" [] [doc_field []]] ++ extra).
Definition doc_with (rcs : list xml) : xml :=
  Elem "device" [("schemaVersion", "1.3")]%string
    [leaf "name" "DEV"; leaf "version" "1"; leaf "description" "d"; leaf "addressUnitBits" "8"; leaf "width" "32";
     Elem "peripherals" [] [Elem "peripheral" [] [leaf "name" "P"; leaf "baseAddress" "0x40000000";
       Elem "registers" [] rcs]]].
Definition doc : xml := doc_with [doc_register []; Elem "cluster" [] [leaf "name" "C"; leaf "addressOffset" "0"; doc_register []]].
Definition strictly : pconfig := {| pc_level := Strict; pc_expand := false; pc_expand_properties := false; pc_ignore_enums := false |}.
Definition accepted {A} (r : res A) : bool := match r with Ok _ => true | _ => false end.

(** ** C11 *)
Theorem C11_arrays : forall m cfg n x s d, device_parse m cfg n = Ok x -> array_in_device x s d ->
  has_placeholder s /\ indexed d.
Proof. intros m cfg n x s d H. apply (device_parse_ok m cfg n x H). Qed.
Print Assumptions C11_arrays.
(** So naming the instances cannot go out of bounds. *)
Theorem C11_names : forall m cfg n x s d template, device_parse m cfg n = Ok x -> array_in_device x s d ->
  exists l, names d template = Ok l /\ N.of_nat (List.length l) = de_dim d.
Proof.
  intros m cfg n x s d t H A. destruct (C11_arrays _ _ _ _ _ _ H A) as [_ I].
  assert (E : exists l, names d t = Ok l).
  { apply names_total. intros i L. unfold index_text. unfold indexed in I. destruct (de_index d) as [l|].
    - specialize (I l eq_refl). destruct (nth_error l (N.to_nat i)) eqn:E; [eauto|]. apply nth_error_None in E. exfalso. lia.
    - exists (to_string i). now apply ArrayProofs.numeral_to_string. }
  destruct E as [l E]. exists l. split; [exact E|]. now apply names_spec in E as [E _].
Qed.
Print Assumptions C11_names.
(** The same for any single register, cluster, peripheral or field that is parsed on its own. *)
Theorem C11_parts : forall m cfg n,
  (forall f, field_parse m cfg n = Ok f -> array_good f_name f) /\
  (forall rc s d, rc_parse m cfg n = Ok rc -> array_in_rc rc s d -> has_placeholder s /\ indexed d) /\
  (forall c s d, cluster_parse m cfg n = Ok c -> array_in_rc (RCCluster c) s d -> has_placeholder s /\ indexed d).
Proof.
  intros m cfg n. conjs.
  - intros f H. now apply (field_parse_ok m cfg n).
  - intros rc s d H. now apply (rc_parse_ok m cfg n rc H).
  - intros c s d H. now apply (cluster_parse_ok m cfg n c H).
Qed.
Print Assumptions C11_parts.
Example C11_example : exists x d, device_parse Debug strictly doc = Ok x /\ array_in_device x "CR%s" d /\ de_dim d = 2.
Proof.
  destruct (device_parse Debug strictly doc) as [x| |] eqn:E; [|vm_compute in E; discriminate..].
  vm_compute in E. injection E as <-. eexists. eexists. split; [reflexivity|].
  split; [|shelve]. eapply ad_child; [left; reflexivity|]. eapply ap_child; [reflexivity|left; reflexivity|]. apply ac_register.
  Unshelve. reflexivity.
Qed.
(** Too few indexes, or no placeholder, are refused. *)
Example C11_refused :
  accepted (device_parse Debug strictly (doc_with [Elem "register" [] [leaf "name" "R%s"; leaf "addressOffset" "0";
    leaf "dim" "3"; leaf "dimIncrement" "4"; leaf "dimIndex" "A,B"]])) = false /\
  accepted (device_parse Debug strictly (doc_with [Elem "register" [] [leaf "name" "R"; leaf "addressOffset" "0";
    leaf "dim" "2"; leaf "dimIncrement" "4"; leaf "dimIndex" "A,B"]])) = false.
Proof. split; reflexivity. Qed.

(** ** C44 *)
Theorem C44_valid : forall m cfg n x, device_parse m cfg n = Ok x ->
  forall e, in_device x e -> element_ok (pc_level cfg) e.
Proof. intros m cfg n x H. apply (device_parse_ok m cfg n x H). Qed.
Print Assumptions C44_valid.
Theorem C44_validate_all : forall m cfg n x, device_parse m cfg n = Ok x -> device_validate_all (pc_level cfg) x = Ok tt.
Proof. intros m cfg n x H. apply device_validate_all_ok. now apply (C44_valid m cfg n). Qed.
Print Assumptions C44_validate_all.
Example C44_example : exists x, device_parse Debug strictly doc = Ok x /\ device_validate_all Strict x = Ok tt.
Proof.
  destruct (device_parse Debug strictly doc) as [x| |] eqn:E; [|vm_compute in E; discriminate..].
  exists x. split; [reflexivity|]. apply (C44_validate_all _ _ _ _ E).
Qed.
Example C44_refused : (* an enumerated value that does not fit the field *)
  accepted (device_parse Debug strictly (doc_with [Elem "register" [] [leaf "name" "R"; leaf "addressOffset" "0";
    Elem "fields" [] [Elem "field" [] [leaf "name" "F"; leaf "bitRange" "[7:4]"; Elem "enumeratedValues" [] [doc_value "A" "16"]]]]])) = false.
Proof. reflexivity. Qed.

(** ** C45 *)
Theorem C45_layout : forall m cfg n n', same_layout n n' -> device_parse m cfg n = device_parse m cfg n'.
Proof. exact same_device. Qed.
Print Assumptions C45_layout.
Theorem C45_parts : forall m cfg n n', same_layout n n' ->
  peripheral_parse m cfg n = peripheral_parse m cfg n' /\ rc_parse m cfg n = rc_parse m cfg n' /\
  field_parse m cfg n = field_parse m cfg n' /\ evs_parse cfg n = evs_parse cfg n'.
Proof. intros. conjs; [now apply same_peripheral|now apply same_rc|now apply same_field|now apply same_evs]. Qed.
Print Assumptions C45_parts.

Lemma same_refl n : is_element n = true -> (forall t a l, within n (Elem t a l) -> NoDup (map fst a)) -> same_layout n n.
Proof.
  induction n as [t a l IH|s|] using xml_tree_ind; [|discriminate..]. intros _ D. constructor; [reflexivity|eapply D; constructor|constructor|].
  intros g. rewrite Forall_forall in IH.
  assert (H : forall c, In c (filter (in_group t g) l) -> same_layout c c).
  { intros c I. apply filter_In in I as [I G]. apply IH; [exact I|destruct c; [reflexivity|discriminate..]|].
    intros t' a' l' W. eapply D. econstructor; eauto. }
  induction (filter (in_group t g) l); constructor; [apply H; cbn; auto|]. apply IHl0. intros; apply H; cbn; auto.
Qed.
(** A comment and a line break inserted, an element nobody knows added, two children
    swapped, white space put around a text, attributes swapped. *)
Example C45_example :
  let a := [("derivedFrom", "x.y"); ("other", "1")]%string in
  let n := Elem "register" a [leaf "name" "R"; leaf "addressOffset" "4"; leaf "description" "d"] in
  let n' := Elem "register" (rev a) [Text "  "; Misc; leaf "description" "d"; leaf "vendorExtensions" "z";
                                     leaf "name" " R "; leaf "addressOffset" "4"; Text " "] in
  same_layout n n' /\ n <> n' /\ accepted (rc_parse Debug strictly n) = true.
Proof.
  cbv zeta. split; [|split; [discriminate|reflexivity]]. apply sl_elem.
  - apply perm_swap.
  - repeat constructor; cbn; intuition discriminate.
  - discriminate.
  - assert (L : forall k, structured k = false -> one_of ["name"; "description"; "addressOffset"]%string k = true ->
        forall s s', trim s = trim s' -> s <> ""%string -> s' <> ""%string -> same_layout (leaf k s) (leaf k s')).
    { intros k U K s s' T N N'. constructor; [constructor|constructor| |].
      - intros _. apply st_spaces with (r := trim s); auto; [intros ->; discriminate| |]; apply trim_spec; auto.
      - intros g. cbn. constructor. }
    intros g. set (G := in_group "register" g). cbn [filter rev app].
    assert (G0 : forall k s, group "register" k <> None -> G (leaf k s) = String.eqb (opt_default k (group "register" k)) g).
    { intros k s N. unfold G. cbn [in_group leaf]. destruct (group "register" k); [reflexivity|congruence]. }
    assert (Gx : forall s, G (leaf "vendorExtensions" s) = false) by reflexivity. 
    rewrite Gx. repeat (rewrite G0 by discriminate). change (G (Text "  ")) with false. change (G (Text " ")) with false. change (G Misc) with false.
    cbv iota. change (opt_default "name" (group "register" "name")) with "name"%string.
    change (opt_default "addressOffset" (group "register" "addressOffset")) with "addressOffset"%string.
    change (opt_default "description" (group "register" "description")) with "description"%string.
    destruct (String.eqb_spec "name" g) as [<-|]; [apply Forall2_cons; [apply L; reflexivity || discriminate|apply Forall2_nil]|].
    destruct (String.eqb_spec "addressOffset" g) as [<-|]; [apply Forall2_cons; [apply L; reflexivity || discriminate|apply Forall2_nil]|].
    destruct (String.eqb_spec "description" g) as [<-|]; [apply Forall2_cons; [apply L; reflexivity || discriminate|apply Forall2_nil]|]. constructor.
Qed.
(** Not layout: a comment before a text hides it, because only the first child is read. *)
Theorem C45_comment_before_text_refuted : exists k s, get_text (Elem k [] [Text s]) = Ok s /\
  get_text (Elem k [] [Misc; Text s]) = Err (EEmptyTag k).
Proof. exists "name"%string, "R"%string. split; reflexivity. Qed.
Print Assumptions C45_comment_before_text_refuted.

(** ** C46 *)
Theorem C46_ignore_enums : forall m cfg n x, device_parse m cfg n = Ok x ->
  device_parse m (ignoring cfg) n = Ok (bare_device x).
Proof. exact ignore_device. Qed.
Print Assumptions C46_ignore_enums.
Example C46_example : exists x, device_parse Debug strictly doc = Ok x /\ bare_device x <> x.
Proof.
  destruct (device_parse Debug strictly doc) as [x| |] eqn:E; [|vm_compute in E; discriminate..].
  vm_compute in E. injection E as <-. eexists. split; [reflexivity|]. intros E. discriminate.
Qed.

(** ** C48 *)
Theorem C48_panics : forall m cfg n p, device_parse m cfg n = Panic p -> blame m n p.
Proof. exact only_device. Qed.
Print Assumptions C48_panics.
Theorem C48_no_panic : forall m cfg n, (forall c, within n c -> ~ hollow_constraint c /\ ~ widest_field c) ->
  exists r, device_parse m cfg n = r /\ forall p, r <> Panic p.
Proof.
  intros m cfg n H. eexists. split; [reflexivity|]. intros p E. apply C48_panics in E as [(_ & c & W & K)|(_ & _ & c & W & K)];
    destruct (H c W); tauto.
Qed.
Print Assumptions C48_no_panic.
Fixpoint subtrees (n : xml) : list xml := n :: match n with Elem _ _ l => flat_map subtrees l | _ => [] end.
Lemma within_subtrees n c : within n c -> In c (subtrees n).
Proof. induction 1 as [n|t a l x c I W IH]; [destruct n; cbn; auto|]. cbn. right. apply in_flat_map. eauto. Qed.
Definition panics {A} (r : res A) : bool := match r with Panic _ => true | _ => false end.
Lemma harmless n : forallb (fun c => negb (has_tag "writeConstraint" c && panics (wc_parse c)) &&
    negb (has_tag "field" c && panics (bit_range_parse Debug c))) (subtrees n) = true ->
  forall c, within n c -> ~ hollow_constraint c /\ ~ widest_field c.
Proof.
  intros H c W. apply within_subtrees in W. rewrite forallb_forall in H. specialize (H c W). apply andb_true_iff in H as [H1 H2].
  apply negb_true_iff in H1, H2. split.
  - intros (a & l & -> & K). revert H1. unfold wc_parse. cbn [children]. destruct (filter is_element l) as [|c k] eqn:F; [discriminate|].
    assert (I : In c (filter is_element l)) by (rewrite F; cbn; auto). apply filter_In in I as [I E]. destruct c; [|discriminate..]. now apply K in I.
  - intros [N (t & E)]. apply has_tag_named in N. rewrite N in H2. rewrite (BitProofs.bits_ends Debug _ _ _ _ E), BitProofs.bit_range_of_full in H2. discriminate.
Qed.
Example C48_example : forall c, within doc c -> ~ hollow_constraint c /\ ~ widest_field c.
Proof. apply harmless. reflexivity. Qed.
(** Both causes are real. *)
Theorem C48_write_constraint_refuted : exists n, forall m cfg, pc_ignore_enums cfg = false ->
  device_parse m cfg n = Panic Unwrap.
Proof.
  exists (doc_with [Elem "register" [] [leaf "name" "R"; leaf "addressOffset" "0"; Elem "writeConstraint" [] []]]).
  intros m [l e p i] E. cbn in E. subst. destruct m, l; reflexivity.
Qed.
Print Assumptions C48_write_constraint_refuted.
Theorem C48_wide_field_refuted : exists n, forall cfg, device_parse Debug cfg n = Panic Overflow.
Proof.
  exists (doc_with [Elem "register" [] [leaf "name" "R"; leaf "addressOffset" "0";
    Elem "fields" [] [Elem "field" [] [leaf "name" "F"; leaf "bitRange" "[4294967295:0]"]]]]).
  intros [[] e p i]; reflexivity.
Qed.
Print Assumptions C48_wide_field_refuted.
