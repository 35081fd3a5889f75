(** C07, C41, C42, C43, C56, C57: writing a description and reading it back. *)
From Coq Require Import Permutation.
From Verif Require Import Base BaseFacts Num Types Names Validate Builders Arrays Config Sort Xml Encode Parse SpecNum SpecArray
  ArrayProofs InstanceProofs SpecText TrimProofs SpecXml XmlFacts SpecValidate SpecBuild SpecParse ParseProofs TreeFacts
  SpecSort SpecRound RoundProofs EncodeProofs FitProofs PropParse.

(** ** C07: the index list of an array *)
Theorem C07_round_trip : forall m conv cfg d n, de_dim d < 2 ^ 32 -> opt_all (indexes_fit (de_dim d)) (de_index d) ->
  de_encode m conv cfg d = Ok n -> optional dim_index_parse "dimIndex" n = Ok (de_index d).
Proof.
  intros m conv cfg d n B F E. destruct (de_encode_ok m conv cfg d n E) as (ns & I & ->). eapply index_round; eauto.
  unfold get_child. cbn [children]. rewrite pieces_find by (reflexivity || (eapply de_well; exact I)). reflexivity.
Qed.
Print Assumptions C07_round_trip.
(** It is always written, except in a debug build for lists with both ends of u32. *)
Theorem C07_written : forall m conv cfg d, de_dim d < 2 ^ 32 -> opt_all (indexes_fit (de_dim d)) (de_index d) ->
  calm m d -> exists n, de_encode m conv cfg d = Ok n.
Proof.
  intros m conv cfg d B F C. unfold de_encode. destruct (de_index d) as [is|] eqn:E; [|cbn; eauto].
  destruct (range_total m d) as [r R]; auto; [now rewrite E|]. rewrite R. cbn [bind]. eauto.
Qed.
Print Assumptions C07_written.
Definition dims (is : list string) : dim_element :=
  {| de_dim := N.of_nat (List.length is); de_increment := 4; de_index := Some is; de_name := None; de_array_index := None |}.
(** What is read back for indexes that no list of indexes can express. *)
Theorem C07_odd_indexes_refuted : exists is, de_dim (dims is) < 2 ^ 32 /\
  exists n, de_encode Release (fun _ s => s) config_default (dims is) = Ok n /\
  optional dim_index_parse "dimIndex" n <> Ok (Some is).
Proof. exists ["A-C"]%string. split; [reflexivity|]. eexists. split; [reflexivity|]. vm_compute. discriminate. Qed.
Print Assumptions C07_odd_indexes_refuted.
Example C07_example : indexes_fit 3 ["7"; "8"; "9"]%string /\ indexes_fit 3 ["A"; "7"; "x y"]%string /\
  exists n, de_encode Debug (fun _ s => s) config_default (dims ["7"; "8"; "9"]%string) = Ok n /\
  get_child "dimIndex" n = Some (new_node "dimIndex" "7-9").
Proof.
  assert (G : forall s, Nat.eqb (String.length s) 0 = false -> trim s = s -> text_fits s).
  { intros [|] L T; [discriminate|]. split; [discriminate|]. now apply trim_spec. }
  assert (F : forall c s, existsb (Ascii.eqb c) (list_ascii_of_string s) = false -> free_of c s).
  { intros c s E I. assert (existsb (Ascii.eqb c) (list_ascii_of_string s) = true); [|congruence].
    apply existsb_exists. exists c. split; auto. apply Ascii.eqb_refl. }
  assert (N : forall is, is <> [] -> Forall (free_of ",") is -> Forall (free_of "-") is -> text_fits (glue "," is) ->
    indexes_fit (N.of_nat (List.length is)) is) by (intros; unfold indexes_fit; conjs; auto).
  split; [|split].
  - apply N; [discriminate|repeat constructor; apply F; reflexivity..|]. apply (G "7,8,9"%string); reflexivity.
  - apply N; [discriminate|repeat constructor; apply F; reflexivity..|]. apply (G "A,7,x y"%string); reflexivity.
  - eexists. split; reflexivity.
Qed.

(** ** C41 *)
Theorem C41_round_trip : forall m m' conv cfg pcfg d, no_cases cfg -> in_place cfg -> pc_ignore_enums pcfg = false ->
  device_fits (pc_level pcfg) d -> (forall s e, array_in_device d s e -> calm m e) ->
  exists n, device_encode m conv cfg d = Ok n /\ device_parse m' pcfg n = Ok d.
Proof.
  intros m m' conv cfg pcfg d K P I F C. pose proof (w_device_id m conv cfg _ K P d F) as W.
  destruct (device_total m conv cfg _ d d W F C) as [n E]. exists n. split; [exact E|]. eapply device_round; eauto.
Qed.
Print Assumptions C41_round_trip.
(** In particular with the default configuration. *)
Theorem C41_default : forall m m' conv pcfg d, pc_ignore_enums pcfg = false ->
  device_fits (pc_level pcfg) d -> (forall s e, array_in_device d s e -> calm m e) ->
  exists n, device_encode m conv config_default d = Ok n /\ device_parse m' pcfg n = Ok d.
Proof. intros. apply C41_round_trip; auto; unfold no_cases, in_place; repeat split. Qed.
Print Assumptions C41_default.

(** ** C42 *)
Theorem C42_parts : forall m conv cfg pcfg, no_cases cfg -> in_place cfg -> pc_ignore_enums pcfg = false ->
  let l := pc_level pcfg in
  (forall p t a, props_fit l p -> rp_parse pcfg (Elem t a (rp_encode cfg p)) = Ok p) /\
  (forall w, constraint_fits w -> wc_parse (wc_encode w) = Ok w) /\
  (forall e, value_fits l e -> ev_parse pcfg (ev_encode conv cfg e) = Ok e) /\
  (forall e, values_fit l e -> evs_parse pcfg (evs_encode conv cfg e) = Ok e) /\
  (forall d, dim_fits l d -> calm m d -> exists n, de_encode m conv cfg d = Ok n /\ de_parse pcfg n = Ok d) /\
  (forall a, block_fits a -> ab_parse pcfg (ab_encode cfg a) = Ok a) /\
  (forall i, interrupt_fits i -> it_parse pcfg (it_encode conv cfg i) = Ok i) /\
  (forall c, cpu_fits c -> cpu_parse pcfg (cpu_encode c) = Ok c).
Proof.
  intros m conv cfg pcfg K P I l. conjs.
  - intros p t a F. apply (rp_round pcfg cfg (Elem t a (rp_encode cfg p)) p); [intros k _; reflexivity|exact F].
  - intros w F. now apply wc_round.
  - intros e F. pose proof (ev_round conv cfg pcfg e) as R. rewrite (value_same conv cfg l K e F) in R. specialize (R F).
    unfold ev_item in R. destruct (has_tag _ _); [exact R|discriminate].
  - intros e F. pose proof (evs_round conv cfg pcfg e) as R. rewrite (values_same conv cfg l K e F) in R. exact (R F).
  - intros d F C. pose proof (dim_same conv cfg l K d F) as S. destruct (de_total m conv cfg l d) as [n E]; [now rewrite S|exact C|].
    exists n. split; [exact E|]. destruct (de_encode_ok m conv cfg d n E) as (ns & X & ->).
    rewrite <- S at 2. eapply de_round; [exact X|rewrite S; exact F|intros k _; reflexivity].
  - intros a F. now apply ab_round.
  - intros i F. pose proof (it_round conv cfg pcfg i) as R. rewrite (interrupt_same conv cfg K i F) in R. exact (R F).
  - intros c F. now apply cpu_round.
Qed.
Print Assumptions C42_parts.
Theorem C42_field : forall m m' conv cfg pcfg f, no_cases cfg -> in_place cfg -> pc_ignore_enums pcfg = false ->
  any_fits (pc_level pcfg) f_name (field_fits (pc_level pcfg)) f -> (forall i d, f = Array i d -> calm m d) ->
  exists n, field_encode m conv cfg f = Ok n /\ field_parse m' pcfg n = Ok f.
Proof.
  intros m m' conv cfg pcfg f K P I F C.
  assert (W : w_any conv cfg (w_field conv cfg) f = f).
  { rewrite (field_same conv cfg (pc_level pcfg) K f); auto; [now apply field_as_id|now apply any_info in F]. }
  destruct (field_total m conv cfg (pc_level pcfg) f) as [n E]; [now rewrite W|exact C|].
  exists n. split; [exact E|]. rewrite <- W. eapply field_round; eauto. now rewrite W.
Qed.
Print Assumptions C42_field.
Theorem C42_register_cluster : forall m m' conv cfg pcfg rc, no_cases cfg -> in_place cfg -> pc_ignore_enums pcfg = false ->
  rc_fits (pc_level pcfg) rc -> (forall s d, array_in_rc rc s d -> calm m d) ->
  exists n, rc_encode m conv cfg rc = Ok n /\ rc_parse m' pcfg n = Ok rc.
Proof.
  intros m m' conv cfg pcfg rc K P I F C. destruct (w_rc_in_place m conv cfg P rc) as [rc' W].
  destruct (rc_same m conv cfg _ K rc rc' F (fun f _ => in_place_spans cfg P f) W) as [L _].
  apply rc_like_id in L; auto. subst rc'. destruct (rc_total m conv cfg _ rc rc W F C) as [n E].
  exists n. split; [exact E|]. eapply rc_round; eauto.
Qed.
Print Assumptions C42_register_cluster.
Theorem C42_peripheral : forall m m' conv cfg pcfg p, no_cases cfg -> in_place cfg -> pc_ignore_enums pcfg = false ->
  any_fits (pc_level pcfg) p_name (peripheral_fits (pc_level pcfg)) p -> (forall i d, p = Array i d -> calm m d) ->
  (forall s d, array_in_peripheral (info p) s d -> calm m d) ->
  exists n, peripheral_encode m conv cfg p = Ok n /\ peripheral_parse m' pcfg n = Ok p.
Proof.
  intros m m' conv cfg pcfg p K P I F C1 C2.
  assert (W : exists p', w_peripheral_any m conv cfg p = Ok p').
  { pose proof P as (_ & R & _). unfold w_peripheral_any, w_registers. rewrite R. destruct (p_registers (info p)) as [v|]; [|cbn; eauto].
    change (sort_registers m (RcUnchanged (Unchanged None)) v) with (Ok v). cbn [bind].
    destruct (mapM_total (w_rc m conv cfg) v) as [ks ->]; [intros; now apply w_rc_in_place|cbn; eauto]. }
  destruct W as [p' W]. destruct (peripheral_same m conv cfg _ K p p' F (fun f _ => in_place_spans cfg P f) W) as [L _].
  assert (p' = p).
  { destruct L as [p rs L]. apply registers_like_id in L as ->; auto. destruct p; cbn; now rewrite with_registers_id. }
  subst p'. destruct (peripheral_total m conv cfg _ p p W F C1 C2) as [n E].
  exists n. split; [exact E|]. eapply peripheral_round; eauto.
Qed.
Print Assumptions C42_peripheral.

(** ** C43: what a configuration without name conversions does to the description *)
Theorem C43_meaning : forall m m' conv cfg pcfg d n, no_cases cfg -> pc_ignore_enums pcfg = false ->
  device_fits (pc_level pcfg) d -> (forall f, in_device d (EField f) -> spans cfg f) ->
  device_encode m conv cfg d = Ok n ->
  exists d', device_parse m' pcfg n = Ok d' /\ device_like cfg d d'.
Proof.
  intros m m' conv cfg pcfg d n K I F S E. destruct (device_stands m conv cfg d n E) as [d' W].
  destruct (device_same m conv cfg _ K d d' F S W) as [L F']. exists d'. split; [|exact L]. eapply device_round; eauto.
Qed.
Print Assumptions C43_meaning.
(** Writing succeeds unless sorting panics (C28, C29) or an index list is not calm. *)
Theorem C43_written : forall m conv cfg l d d', no_cases cfg -> device_fits l d ->
  (forall f, in_device d (EField f) -> spans cfg f) -> (forall s e, array_in_device d s e -> calm m e) ->
  w_device m conv cfg d = Ok d' -> exists n, device_encode m conv cfg d = Ok n.
Proof.
  intros m conv cfg l d d' K F S C W. destruct (device_same m conv cfg l K d d' F S W) as [_ F']. eapply device_total; eauto.
Qed.
Print Assumptions C43_written.
(** Number formats do not matter at all, with or without name conversions. *)
Definition same_but_numbers (cfg cfg' : config) : Prop :=
  cfg_peripheral_name cfg = cfg_peripheral_name cfg' /\ cfg_interrupt_name cfg = cfg_interrupt_name cfg' /\
  cfg_cluster_name cfg = cfg_cluster_name cfg' /\ cfg_register_name cfg = cfg_register_name cfg' /\
  cfg_field_name cfg = cfg_field_name cfg' /\ cfg_enumerated_values_name cfg = cfg_enumerated_values_name cfg' /\
  cfg_enumerated_value_name cfg = cfg_enumerated_value_name cfg' /\
  cfg_dim_array_index_header_enum_name cfg = cfg_dim_array_index_header_enum_name cfg' /\
  cfg_peripheral_sorting cfg = cfg_peripheral_sorting cfg' /\
  cfg_register_cluster_sorting cfg = cfg_register_cluster_sorting cfg' /\
  cfg_field_sorting cfg = cfg_field_sorting cfg' /\ cfg_field_bit_range cfg = cfg_field_bit_range cfg'.
Lemma w_device_numbers m conv cfg cfg' d : same_but_numbers cfg cfg' -> w_device m conv cfg d = w_device m conv cfg' d.
Proof.
  destruct cfg, cfg'. unfold same_but_numbers. cbn. intros (-> & -> & -> & -> & -> & -> & -> & -> & -> & -> & -> & ->). reflexivity.
Qed.
Theorem C43_numbers : forall m m' conv cfg cfg' pcfg d d' n n', same_but_numbers cfg cfg' -> pc_ignore_enums pcfg = false ->
  w_device m conv cfg d = Ok d' -> device_fits (pc_level pcfg) d' ->
  device_encode m conv cfg d = Ok n -> device_encode m conv cfg' d = Ok n' ->
  device_parse m' pcfg n = Ok d' /\ device_parse m' pcfg n' = Ok d'.
Proof.
  intros m m' conv cfg cfg' pcfg d d' n n' S I W F E E'. split; [eapply device_round; eauto|].
  rewrite (w_device_numbers m conv cfg cfg' d S) in W. eapply device_round; eauto.
Qed.
Print Assumptions C43_numbers.

(** ** C57: with name conversions, every name and every reference to an element of the
    same kind is converted, and nothing else (see [w_device]). *)
Theorem C57_converted : forall m m' conv cfg pcfg d d' n, pc_ignore_enums pcfg = false ->
  w_device m conv cfg d = Ok d' -> device_fits (pc_level pcfg) d' -> device_encode m conv cfg d = Ok n ->
  device_parse m' pcfg n = Ok d'.
Proof. intros. eapply device_round; eauto. Qed.
Print Assumptions C57_converted.

(** ** C56: reading, writing and reading again *)
Theorem C56_reread : forall m m' m'' conv cfg pcfg n d, no_cases cfg -> in_place cfg -> pc_ignore_enums pcfg = false ->
  no_blanks n -> device_parse m pcfg n = Ok d ->
  (forall f, in_device d (EField f) -> can_write f) -> (forall s e, array_in_device d s e -> calm m' e) ->
  exists n', device_encode m' conv cfg d = Ok n' /\ device_parse m'' pcfg n' = Ok d.
Proof.
  intros m m' m'' conv cfg pcfg n d K P I B R W C. apply C41_round_trip; auto. eapply device_read; eauto.
Qed.
Print Assumptions C56_reread.

(** ** Examples: the document of PropParse *)
Fixpoint no_blanksb (n : xml) : bool :=
  match n with
  | Elem t _ l =>
      (negb (existsb (seqb t) text_tags) ||
       match l with Text s :: _ => str_empty s || negb (str_empty (trim s)) | _ => true end) &&
      (negb (seqb t "fields") || existsb is_element l) && forallb no_blanksb l
  | _ => true
  end.
Lemma no_blanksb_ok n : no_blanksb n = true -> no_blanks n.
Proof.
  induction n as [t a l IH|s|] using xml_tree_ind; intros H e E; cycle 1.
  1, 2: inversion E; subst; split; [intros _ s' (? & ? & ? & D & _); discriminate|discriminate].
  cbn [no_blanksb] in H. apply andb_true_iff in H as [H1 H3]. apply andb_true_iff in H1 as [H1 H2].
  rewrite forallb_forall in H3. rewrite Forall_forall in IH. inversion E; subst.
  - cbn [tag children]. split.
    + intros I s (t' & a' & r & D & N) X. injection D as <- <- ->. apply orb_true_iff in H1 as [H1|H1].
      * apply negb_true_iff in H1. assert (existsb (seqb t) text_tags = true); [|congruence].
        apply existsb_exists. exists t. split; auto. apply seqb_refl.
      * assert (T : trim s = ""%string).
        { apply trim_spec. exists s, ""%string. rewrite sapp_nil. conjs; auto; try constructor; intros c u (k & K & W) Z;
            assert (c <> ""%string) by (subst c; unfold white_code_points in K;
              repeat (destruct K as [<-|K]; [discriminate|]); destruct K); destruct c, u; discriminate || congruence. }
        rewrite T in H1. destruct s; [congruence|discriminate].
    + intros ->. cbn in H2. apply existsb_exists in H2 as (c & I & C). eauto.
  - match goal with I : In ?c l, X : inside ?c e |- _ => apply (IH c I (H3 c I) e X) end.
Qed.
Definition described : device :=
  Eval vm_compute in match device_parse Debug strictly doc with
                     | Ok d => d
                     | _ => Device None None "" None "" "" None None None None 0 0 (RegProps None None None None None) [] "" "" ""
                     end.
Lemma described_ok : device_parse Debug strictly doc = Ok described.
Proof. vm_compute. reflexivity. Qed.
(** All fields of a device, and all its arrays, as lists. *)
Definition rf_fields (r : register) : list field_info := map info (opt_default [] (r_fields (info r))).
Fixpoint rc_field_list (rc : register_cluster) : list field_info :=
  match rc with
  | RCRegister r => rf_fields r
  | RCCluster (Single c) | RCCluster (Array c _) => flat_map rc_field_list (c_children c)
  end.
Definition device_fields (d : device) : list field_info :=
  flat_map (fun p => flat_map rc_field_list (opt_default [] (p_registers (info p)))) (d_peripherals d).
Lemma rc_field_in rc : forall f, in_rc rc (EField f) -> In f (rc_field_list rc).
Proof.
  induction rc as [r|c IH] using rc_tree_ind; intros f H; inversion H as [r' x X|c'|c'|c' rc x I X]; subst.
  - inversion X as [| |fs g x E I Y]; subst. inversion Y as [|es y A B]; subst; [|inversion B].
    cbn. unfold rf_fields. rewrite E. cbn. now apply in_map.
  - rewrite Forall_forall in IH. specialize (IH rc I f X).
    assert (In f (flat_map rc_field_list (c_children (info c)))) by (apply in_flat_map; eauto). destruct c; assumption.
Qed.
Lemma device_field_in d f : in_device d (EField f) -> In f (device_fields d).
Proof.
  intros H. inversion H as [| |p x I X]; subst. inversion X as [| |rcs rc x E J Y]; subst. apply rc_field_in in Y.
  unfold device_fields. apply in_flat_map. exists p. split; auto. rewrite E. cbn. apply in_flat_map. eauto.
Qed.
Definition ma_dims {A} (x : maybe_array A) : list dim_element := match x with Array _ d => [d] | _ => [] end.
Fixpoint rc_dim_list (rc : register_cluster) : list dim_element :=
  match rc with
  | RCRegister r => ma_dims r ++ flat_map ma_dims (opt_default [] (r_fields (info r)))
  | RCCluster (Single c) => flat_map rc_dim_list (c_children c)
  | RCCluster (Array c d) => d :: flat_map rc_dim_list (c_children c)
  end.
Definition device_dims (d : device) : list dim_element :=
  flat_map (fun p => ma_dims p ++ flat_map rc_dim_list (opt_default [] (p_registers (info p)))) (d_peripherals d).
Lemma rc_dim_in rc : forall s e, array_in_rc rc s e -> In e (rc_dim_list rc).
Proof.
  induction rc as [r|c IH] using rc_tree_ind; intros s e H; inversion H as [i d|r' s' d X|i d|c' rc s' d I X]; subst.
  - cbn. auto.
  - inversion X as [fs f d E I]; subst. cbn [rc_dim_list]. apply in_or_app. right. rewrite E. cbn. apply in_flat_map. exists (Array f e). split; cbn; auto.
  - cbn. auto.
  - rewrite Forall_forall in IH. specialize (IH rc I s e X).
    assert (In e (flat_map rc_dim_list (c_children (info c)))) by (apply in_flat_map; eauto). destruct c; [assumption|now right].
Qed.
Lemma device_dim_in d s e : array_in_device d s e -> In e (device_dims d).
Proof.
  intros H. unfold device_dims. inversion H as [p x I|p s' x I X]; subst.
  - apply in_flat_map. exists (Array p e). split; auto. cbn. auto.
  - inversion X as [rcs rc s'' x E J Y]; subst. apply rc_dim_in in Y. apply in_flat_map. exists p. split; auto. apply in_or_app. right.
    rewrite E. cbn. apply in_flat_map. eauto.
Qed.
Lemma described_writes f : in_device described (EField f) -> can_write f.
Proof. intros H. apply device_field_in in H. cbn in H. unfold can_write. repeat (destruct H as [<-|H]; [cbn; lia|]). destruct H. Qed.
Lemma described_calm m s e : array_in_device described s e -> calm m e.
Proof.
  intros H. apply device_dim_in in H. cbn in H. intros _ is E [I _].
  repeat (destruct H as [<-|H]; [cbn in E; injection E as <-; cbn in I; repeat (destruct I as [I|I]; [discriminate|]); destruct I|]). destruct H.
Qed.
Example described_fits : device_fits Strict described.
Proof. apply (device_read Debug strictly doc described); [apply no_blanksb_ok; reflexivity|exact described_ok|exact described_writes]. Qed.
Example C41_example : device_fits Strict described /\ List.length (device_fields described) = 2%nat /\
  (forall s e, array_in_device described s e -> calm Debug e) /\
  exists n, device_encode Debug (fun _ s => s) config_default described = Ok n /\ device_parse Release strictly n = Ok described.
Proof.
  conjs; [exact described_fits|reflexivity|intros s e; apply described_calm|]. apply C41_default; auto; [exact described_fits|intros s e; apply described_calm].
Qed.
Example C42_example : exists rc, In rc (match d_peripherals described with p :: _ => opt_default [] (p_registers (info p)) | [] => [] end) /\
  rc_fits Strict rc /\ exists n, rc_encode Debug (fun _ s => s) config_default rc = Ok n /\ rc_parse Debug strictly n = Ok rc.
Proof.
  eexists. split; [left; reflexivity|]. match goal with |- rc_fits _ ?rc /\ _ => assert (F : rc_fits Strict rc) end.
  { destruct described_fits as (_ & _ & _ & _ & _ & _ & _ & _ & _ & _ & _ & _ & _ & F & _). cbn in F. inversion F as [|p ps X Y]; subst.
    destruct X as (_ & _ & _ & _ & _ & _ & _ & _ & _ & _ & _ & _ & _ & X & _). cbn in X. now inversion X. }
  split; [exact F|]. apply C42_register_cluster; auto; [unfold no_cases, in_place; repeat split..|].
  intros s d A. apply (described_calm Debug s d). eapply ad_child; [left; reflexivity|]. eapply ap_child; [reflexivity|left; reflexivity|exact A].
Qed.
(** Descending addresses, registers first, most and least significant bits, other number formats. *)
Definition arranging : config :=
  Config None Dec (DeriveLast (Some ByOffsetReversed)) Bin Dec None None Dec (ClustersFirst (Unchanged (Some ByName))) None Bin Dec Dec Dec
    None (Some BRT_MsbLsb) (Unchanged (Some ByOffsetReversed)) None None LowerHex UpperHex Bin None.
Example C43_example : no_cases arranging /\ (forall f, in_device described (EField f) -> spans arranging f) /\
  exists n d', device_encode Debug (fun _ s => s) arranging described = Ok n /\ device_parse Debug strictly n = Ok d' /\
  device_like arranging described d' /\ d' <> described.
Proof.
  assert (K : no_cases arranging) by (unfold no_cases; repeat split).
  assert (S : forall f, in_device described (EField f) -> spans arranging f).
  { intros f H. apply device_field_in in H. cbn in H. intros t _ _. repeat (destruct H as [<-|H]; [cbn; lia|]). destruct H. }
  conjs; [exact K|exact S|]. destruct (device_encode Debug (fun _ s => s) arranging described) as [n| |] eqn:E; [|vm_compute in E; discriminate..].
  destruct (C43_meaning Debug Debug (fun _ s => s) arranging strictly described n K eq_refl described_fits S E) as (d' & P & L).
  exists n, d'. conjs; auto. intros ->. vm_compute in E. injection E as <-. vm_compute in P. discriminate.
Qed.
Example C56_example : no_blanks doc /\ device_parse Debug strictly doc = Ok described /\
  (forall f, in_device described (EField f) -> can_write f) /\ (forall s e, array_in_device described s e -> calm Debug e).
Proof. conjs; [apply no_blanksb_ok; reflexivity|exact described_ok|exact described_writes|intros s e; apply described_calm]. Qed.
Definition naming : config :=
  Config (Some Constant) UpperHex8 (Unchanged None) UpperHex UpperHex None (Some Snake) UpperHex (RcUnchanged (Unchanged None)) (Some Pascal)
    UpperHex LowerHex UpperHex16 UpperHex16 (Some Camel) None (Unchanged None) None None Dec Dec UpperHex None.
Definition longer (f : id_format) (s : string) : string := (s ++ "_x")%string.
Example C57_example : exists d' n, w_device Debug longer naming described = Ok d' /\ device_fits Strict d' /\
  device_encode Debug longer naming described = Ok n /\ device_parse Debug strictly n = Ok d' /\
  array_in_device d' "CR%s_x" (dims ["A"; "B"]%string).
Proof.
  destruct (w_device Debug longer naming described) as [d'| |] eqn:W; [|vm_compute in W; discriminate..].
  destruct (device_encode Debug longer naming described) as [n| |] eqn:E; [|vm_compute in E; discriminate..].
  exists d', n. vm_compute in W. injection W as <-. vm_compute in E. injection E as <-.
  match goal with |- _ = _ /\ _ /\ _ /\ ?p = Ok ?d /\ _ => assert (P : p = Ok d) by (vm_compute; reflexivity) end.
  conjs; auto; [|eapply ad_child; [left; reflexivity|]; eapply ap_child; [reflexivity|left; reflexivity|]; apply ac_register].
  eapply (device_read Debug strictly); [|exact P|]; [apply no_blanksb_ok; reflexivity|].
  intros f H. apply device_field_in in H. cbn in H. unfold can_write. repeat (destruct H as [<-|H]; [cbn; lia|]). destruct H.
Qed.
