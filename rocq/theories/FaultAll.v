(** C71, continued: arrays, fields and what holds them. *)
From Verif Require Import BaseFacts Num Types Names Validate Builders Arrays Xml Parse SpecNum NumProofs EnumProofs
  SpecValidate NameProofs ValidateProofs BuilderProofs SpecText SpecXml XmlFacts BitProofs SpecArray ArrayProofs SpecParse
  ParseProofs SpecShape ShapeProofs ParseAt AtProofs SpecFault FaultProofs FaultMore.

(** ** Arrays *)
Lemma blames_dai cfg w n : blames (pc_level cfg) w n (dai_at cfg w n).
Proof.
  unfold dai_at. apply blames_bind; [apply blames_text_opt|]. intros. apply blames_bind; [|intros; apply blames_ok].
  apply blames_collect. intros v c _ Q. apply blames_ev_item. apply andb_prop in Q as [Q _]. now apply element_iff.
Qed.
Lemma blames_dim_index l w n : named "dimIndex" n -> blames l w n (dim_index_at w n).
Proof.
  intros K. unfold dim_index_at. apply blames_bind; [now apply blames_text with "dimIndex"%string|]. intros t T. apply blames_at. intros e E.
  destruct (parse_indexes t) eqn:P; [discriminate|]. injection E as <-. cbn. split; [exact K|]. exists t.
  split; [apply get_text_content; tot erase_text|]. intros idx I. apply parse_indexes_spec in I. congruence.
Qed.
Lemma blames_de cfg w n : needs n "dim" -> ~ no_child "dimIncrement" n -> blames (pc_level cfg) w n (de_at cfg w n).
Proof.
  intros ND NI. unfold de_at. apply blames_bind; [u32 ND|]. intros dim E1.
  apply blames_bind; [apply blames_elem_if; [contradiction|]; intros v c N _; now apply blames_num with "dimIncrement"%string|]. intros inc E2.
  apply blames_bind; [apply blames_optional; intros; now apply blames_dim_index|]. intros index E3.
  apply blames_bind; [apply blames_text_opt|]. intros name E4.
  apply blames_bind; [apply blames_optional; intros; apply blames_dai|]. intros dai E5.
  apply blames_at. intros e E. discriminate.
Qed.
Lemma de_facts cfg n d : de_parse cfg n = Ok d -> counts pow32 "dim" n (de_dim d) /\
  forall l, de_index d = Some l -> exists s, says "dimIndex" n s /\ index_list s l.
Proof.
  unfold de_parse. intros H. binds H. unfold de_build in H. cbn in H. injection H as <-. cbn. split.
  - now apply child_counts.
  - intros l L. destruct a1 as [idx|]; [|discriminate]. assert (idx = l) as -> by (destruct idx; cbn in L; congruence).
    apply optional_some in Eb1 as (c & F & I). unfold dim_index_parse in I. apply bind_ok in I as (t & T & I).
    destruct (parse_indexes t) as [x|] eqn:P; [|discriminate]. injection I as ->. exists t.
    split; [exists c; split; [exact F|now apply get_text_content]|now apply parse_indexes_spec].
Qed.
Lemma blames_array {A} cfg t (name : A -> string) f w n : mem t ["peripheral"; "cluster"; "register"; "field"]%string = true ->
  blames (pc_level cfg) w n (expect_at t w n) -> (named t n -> blames (pc_level cfg) w n (f w n)) -> (forall i, f w n = LOk i -> says "name" n (name i)) ->
  blames (pc_level cfg) w n (array_at cfg t name f w n).
Proof.
  intros M K F S. unfold array_at. apply blames_bind; [exact K|]. intros u X. apply expected in X.
  apply blames_bind; [now apply F|]. intros i I. destruct (get_child_at "dimIncrement" w n) as [[v c]|] eqn:G; cbn [is_some]; [|apply blames_ok].
  assert (NI : ~ no_child "dimIncrement" n) by (intros N; apply get_child_none in N; apply child_at_some in G; congruence).
  apply blames_bind; [apply blames_de; [right; split; [reflexivity|]; split; [exact NI|]; exists t; split; [exact X|now apply mem_in]|exact NI]|]. intros d D.
  assert (DP : de_parse cfg n = Ok d) by tot erase_de. destruct (de_facts _ _ _ DP) as [D1 D2].
  apply blames_bind.
  { apply blames_at. intros e E. apply check_err in E as [E ->]. cbn. split; [now apply mem_in in M|]. split; [exact X|]. split; [exact NI|].
    split; [now apply S|]. intros P. apply contains_spec in P. congruence. }
  intros _ _. apply blames_bind; [|intros; apply blames_ok].
  destruct (de_index d) as [l|] eqn:L; [|apply blames_ok].
  apply blames_at. intros e E. apply check_err in E as [E ->]. cbn. split; [exact D1|]. split; [now apply N.eqb_neq|].
  destruct (D2 l eq_refl) as (s & H1 & H2). exists s, l. auto.
Qed.

(** ** Fields *)
Lemma ev_counts cfg n e v : ev_item cfg n = Ok e -> ev_value e = Some v -> named "enumeratedValue" n /\ counts pow64 "value" n v.
Proof.
  unfold ev_item. destruct (has_tag _ n) eqn:T; [|discriminate]. apply has_tag_named in T. unfold ev_parse. intros H V. binds H.
  unfold ev_build in H. cbn in H. apply validated_ok in H as [E _]. subst e. cbn in V. subst a2. split; [exact T|].
  now apply optional_counts.
Qed.
Lemma evs_facts cfg n es : evs_parse cfg n = Ok es ->
  named "enumeratedValues" n /\
  (forall e v, In e (evs_values es) -> ev_value e = Some v -> exists c, In c (children n) /\ named "enumeratedValue" c /\ counts pow64 "value" c v) /\
  evs_derived_from es = attr "derivedFrom" n /\
  (evs_usage es = None -> no_child "usage" n) /\ (forall u, evs_usage es = Some u -> says "usage" n (usage_str u)).
Proof.
  unfold evs_parse. intros H. binds H. unfold evs_build in H. apply validated_ok in H as [E _]. subst es. cbn. conjs.
  - unfold expect_tag, check in Eb. destruct (has_tag _ n) eqn:T; [|discriminate]. now apply has_tag_named.
  - intros e v I V. destruct (collect_in _ _ _ _ _ Eb2 I) as (c & IC & _ & P). exists c. split; [exact IC|]. eapply ev_counts; eassumption.
  - reflexivity.
  - intros ->. eapply optional_none; eassumption.
  - intros u ->. apply optional_some in Eb1 as (c & F & U). exists c. split; [exact F|]. unfold usage_parse_node, enum_parse in U.
    apply bind_ok in U as (t & T & U). destruct (usage_parse t) eqn:P; [|discriminate]. injection U as ->.
    apply usage_text in P. subst t. now apply get_text_content.
Qed.
Lemma no_child_says k n s : no_child k n -> ~ says k n s.
Proof. intros N (c & F & _). apply get_child_none in N. apply get_child_first in F. congruence. Qed.
Lemma attribute_attr k n s : attribute k n s -> attr k n <> None.
Proof. intros (t & a & l & b & c & -> & -> & F) N. apply attr_none in N. specialize (N _ _ _ eq_refl). rewrite Forall_forall in N.
  apply (N (k, s)); [apply in_elt|reflexivity]. Qed.
Lemma usage_of cfg n es u : evs_parse cfg n = Ok es -> u <> UReadWrite ->
  ((exists s, attribute "derivedFrom" n s) \/ says "usage" n (usage_str u)) ->
  evs_get_usage es = None \/ evs_get_usage es = Some u.
Proof.
  intros H NU D. destruct (evs_facts _ _ _ H) as (_ & _ & DF & U0 & U1). unfold evs_get_usage. rewrite DF.
  destruct (attr "derivedFrom" n) as [p|] eqn:A; cbn [is_some]; [now left|]. right. f_equal.
  destruct D as [[s D]|D]; [apply attribute_attr in D; contradiction|].
  destruct (evs_usage es) as [u'|] eqn:E; cbn [opt_default].
  - assert (Q := says_unique _ _ _ _ D (U1 _ eq_refl)). destruct u, u'; try reflexivity; discriminate.
  - exfalso. eapply no_child_says; [now apply U0|exact D].
Qed.
Lemma wc_facts n lo hi : wc_parse n = Ok (WcRange lo hi) -> exists r, first_child "range" n r /\ counts pow64 "minimum" r lo /\ counts pow64 "maximum" r hi.
Proof.
  unfold wc_parse. destruct (filter is_element (children n)) as [|c [|]]; try discriminate.
  destruct (seqb (tag c) "writeAsRead"); [intros H; apply rmap_ok in H as (? & _ & ?); discriminate|].
  destruct (seqb (tag c) "useEnumeratedValues"); [intros H; apply rmap_ok in H as (? & _ & ?); discriminate|].
  destruct (seqb (tag c) "range") eqn:R; [|discriminate]. apply seqb_eq in R. rewrite R. intros H.
  apply bind_ok in H as (r & G & H). unfold get_child_elem in G. destruct (get_child "range" n) as [r'|] eqn:E; [|discriminate].
  injection G as ->. exists r. split; [now apply get_child_first|]. unfold wc_range_parse in H. binds H. injection H as -> ->.
  split; now apply child_counts.
Qed.
Lemma named_filter k n c : In c (children n) /\ has_tag k c = true -> exists l1 l2 t a, n = Elem t a (l1 ++ c :: l2).
Proof. intros [I _]. destruct n as [t a l| |]; [|destruct I..]. apply in_split in I as (l1 & l2 & E). cbn in E. subst l. now exists l1, l2, t, a. Qed.
Lemma blames_field_info m cfg w n : an_element n -> blames (pc_level cfg) w n (field_info_at m cfg w n).
Proof.
  intros K. unfold field_info_at. apply blames_bind; [apply blames_expect; [exact K|reflexivity]|]. intros u X. apply expected in X. clear K u.
  apply blames_bind; [now apply blames_bit_range|]. intros bits E1.
  apply blames_bind; [ct X|]. intros name E2.
  apply blames_bind; [apply blames_text_opt|]. intros descr E3.
  apply blames_bind; [apply blames_optional; intros; now apply blames_access|]. intros acc E4.
  apply blames_bind; [apply blames_optional; intros; now apply blames_mwv|]. intros mw E5.
  apply blames_bind.
  { destruct (negb (pc_ignore_enums cfg)); [|apply blames_ok]. apply blames_optional; intros; now apply blames_wc. }
  intros wc E6.
  apply blames_bind; [apply blames_optional; intros; now apply blames_read_action|]. intros ra E7.
  apply blames_bind.
  { destruct (negb (pc_ignore_enums cfg)); [|apply blames_ok]. apply blames_collect. intros v c _ Q. apply blames_evs. now apply has_tag_named. }
  intros evs E8. apply blames_at. intros e E. unfold field_build in E. cbn [required ok_or bind fb_name fb_bit_range] in E. apply validated_err in E.
  assert (B1 : bit_range_parse m n = Ok bits) by tot erase_bit_range.
  assert (B2 : get_child_text "name" n = Ok name) by tot erase_child_text.
  assert (B6 : forall lo hi, wc = Some (WcRange lo hi) -> constrains n lo hi).
  { intros lo hi ->. destruct (negb (pc_ignore_enums cfg)); [|discriminate].
    assert (P : optional wc_parse "writeConstraint" n = Ok (Some (WcRange lo hi))) by (eapply erased; [apply erase_optional; intros; apply erase_wc|exact E6]).
    apply optional_some in P as (c & F & P). apply wc_facts in P as (r & R1 & R2 & R3). exists c, r. auto. }
  assert (B8 : exists f, evs = [] \/ (Forall2 (fun c es => evs_parse cfg c = Ok es) (filter (has_tag "enumeratedValues") f) evs /\ f = children n)).
  { destruct (negb (pc_ignore_enums cfg)).
    - exists (children n). right. split; [|reflexivity]. apply collect_ok. eapply erased; [apply erase_collect; intros; apply erase_evs|exact E8].
    - exists []. left. congruence. }
  clear E1 E2 E3 E4 E5 E6 E7 E8.
  unfold field_validate in E. cbn in E. destruct (is_disabled (pc_level cfg)) eqn:D; [discriminate|].
  assert (C : checked (pc_level cfg)) by (apply checked_iff; now rewrite D).
  apply bind_err in E as [E|(_ & _ & E)].
  { apply when_err in E as [L E]. apply strict_iff in L. apply bind_err in E as [E|(_ & _ & E)].
    - apply check_dimable_err in E as [N ->]. cbn. split; [exact L|]. eapply mn_name; [|exact X|now apply child_text_says|exact N]. cbn; auto.
    - apply iterM_opt_err in E as (p & A & E). eapply misnamed_path; [|exact X|exact L|exact A|exact E]. cbn; auto. }
  apply bind_err in E as [E|(uu & Z & E)].
  { apply check_err in E as [E ->]. cbn. split; [exact C|]. split; [exact X|]. apply negb_false_iff, N.eqb_eq in E.
    apply bits_ok in B1 as [(h & lo & t & W & LE & NF & ->)|[(t & W & _ & ->)|(o & wd & W & ->)]]; cbn in E.
    - exfalso. clear - E. lia.
    - right. eauto.
    - left. subst wd. eauto. }
  destruct uu; apply check_ok in Z. assert (W : wide n (br_width bits)).
  { apply bits_ok in B1 as [(h & lo & t & W & LE & NF & ->)|[(t & W & _ & ->)|(o & wd & W & ->)]]; cbn in *; [|discriminate|].
    - right. exists t, h, lo. auto.
    - left. eauto. }
  apply bind_err in E as [E|(_ & _ & E)].
  { apply when_err in E as [L E]. apply N.ltb_lt in L. apply iterM_err in E as (es & I & E). apply iterM_err in E as (ev & J & E).
    unfold ev_check_range in E. destruct (ev_value ev) as [v|] eqn:V; [|discriminate]. apply check_err in E as [E ->].
    cbn. conjs; auto.
    - unfold in_range in E. set (P := 2 ^ br_width bits) in *. clear - E. lia.
    - exists (br_width bits). auto.
    - destruct B8 as (f & [->|[F ->]]); [destruct I|]. destruct (Forall2_in_r _ _ _ F _ I) as (c & IC & P). apply filter_In in IC as [IC T].
      apply evs_facts in P as (NC & VS & _). destruct (VS _ _ J V) as (y & IY & NY & CY). exists c, y. auto. }
  apply bind_err in E as [E|(_ & _ & E)].
  { apply when_err in E as [L E]. apply strict_iff in L.
    assert (TWO : exists es1 es2 rest, evs = es1 :: es2 :: rest /\ e = EIncompatibleUsages /\
      (rest = [] -> (reads_or_unknown (evs_get_usage es1) && writes_or_unknown (evs_get_usage es2) = false) /\
                    (reads_or_unknown (evs_get_usage es2) && writes_or_unknown (evs_get_usage es1) = false))).
    { destruct evs as [|es1 [|es2 [|es3 rest]]]; try discriminate.
      - exists es1, es2, []. split; [reflexivity|].
        destruct (reads_or_unknown (evs_get_usage es1) && _); [discriminate|].
        destruct (reads_or_unknown (evs_get_usage es2) && _); [discriminate|]. split; [congruence|auto].
      - exists es1, es2, (es3 :: rest). split; [reflexivity|]. split; [congruence|discriminate]. }
    destruct TWO as (es1 & es2 & rest & -> & -> & NC). destruct B8 as (f & [F|[F ->]]); [discriminate|].
    inversion F as [|x1 ? l1 ? P1 F1 Q1]; subst. inversion F1 as [|x2 ? l2 ? P2 F2 Q2]; subst. symmetry in Q1.
    apply filter_split in Q1 as (k1 & k2 & S1 & _ & T1 & Q2). apply filter_split in Q2 as (k3 & k4 & S2 & _ & T2 & Q3).
    destruct X as (at_ & ch & ->). cbn in S1. subst ch k2. cbn. split; [exact L|]. split; [now exists at_, (k1 ++ x1 :: k3 ++ x2 :: k4)|]. split.
    - intros (y1 & y2 & (t & a & j1 & j2 & j3 & EQ & N1 & N2 & FN) & RW). injection EQ as _ _ EQ.
      assert (FL : filter (has_tag "enumeratedValues") (j1 ++ y1 :: j2 ++ y2 :: j3) = [y1; y2]).
      { assert (Z0 : forall j, Forall (fun c => ~ named "enumeratedValues" c) j -> filter (has_tag "enumeratedValues") j = []).
        { intros j. induction 1 as [|c j N0 FJ IHJ]; [reflexivity|]. cbn. destruct (has_tag _ c) eqn:T0; [|exact IHJ].
          apply has_tag_named in T0. contradiction. }
        apply Forall_app in FN as [F_1 FN]. apply Forall_app in FN as [F_2 F_3]. apply has_tag_named in N1, N2.
        rewrite filter_app. cbn [filter]. rewrite N1, filter_app. cbn [filter]. rewrite N2, !Z0 by assumption. reflexivity. }
      rewrite <- EQ in FL. cbn [children] in F. rewrite FL in F.
      inversion F as [|? ? ? ? G1 H1]; subst. inversion H1 as [|? ? ? ? G2 H2]; subst. inversion H2; subst.
      destruct (NC eq_refl) as [C1 C2].
      destruct RW as [[R W']|[R W']].
      + destruct (usage_of _ _ _ URead G1 ltac:(discriminate) R) as [U|U]; destruct (usage_of _ _ _ UWrite G2 ltac:(discriminate) W') as [V|V];
          rewrite U, V in C1; discriminate.
      + destruct (usage_of _ _ _ URead G2 ltac:(discriminate) R) as [U|U]; destruct (usage_of _ _ _ UWrite G1 ltac:(discriminate) W') as [V|V];
          rewrite U, V in C2; discriminate.
    - exists "field"%string, at_, k1, x1, k3, x2, k4. rewrite <- !has_tag_named. auto. }
  destruct wc as [[| |lo hi]|]; try discriminate. apply when_err in E as [L E]. apply N.ltb_lt in L.
  unfold wc_check_range in E. destruct (N.ltb_spec hi lo) as [R|R].
  - injection E as <-. cbn. conjs; auto.
  - apply iterM_err in E as (v & I & E). apply check_err in E as [E ->]. cbn. conjs; auto.
    + unfold in_range in E. set (P := 2 ^ br_width bits) in *. clear - E. lia.
    + exists (br_width bits). auto.
    + exists lo, hi. split; [now apply B6|]. destruct I as [<-|[<-|[]]]; auto.
Qed.
Lemma field_name m cfg w n i : field_info_at m cfg w n = LOk i -> says "name" n (f_name i).
Proof.
  intros H. assert (P : field_info_parse m cfg n = Ok i) by tot erase_field_info. unfold field_info_parse in P. binds P.
  unfold field_build in P. cbn in P. apply validated_ok in P as [-> _]. cbn. now apply child_text_says.
Qed.
Lemma blames_field m cfg w n : an_element n -> blames (pc_level cfg) w n (field_at m cfg w n).
Proof. intros K. apply blames_array; [reflexivity|now apply blames_expect| |apply field_name]. intros X. apply blames_field_info. eapply named_element; exact X. Qed.

(** ** Registers *)
Lemma collect_hollow {A} q (f : xml -> res A) n : collect q f (children n) = Ok [] -> Forall (fun c => q c = false) (children n).
Proof.
  intros H. apply collect_ok in H. inversion H as [F|]. apply Forall_forall. intros c I. destruct (q c) eqn:Q; [|reflexivity].
  assert (J : In c (filter q (children n))) by (apply filter_In; auto). rewrite <- F in J. destruct J.
Qed.
Lemma elements_hollow n : Forall (fun c => is_element c = false) (children n) -> hollow n.
Proof. intros H t a l ->. eapply Forall_impl; [|exact H]. intros c E N. apply element_iff in N. congruence. Qed.
Lemma blames_register_info m cfg w n : named "register" n -> blames (pc_level cfg) w n (register_info_at m cfg w n).
Proof.
  intros X. unfold register_info_at.
  apply blames_bind; [ct X|]. intros name E1.
  apply blames_bind; [apply blames_text_opt|]. intros dname _.
  apply blames_bind; [apply blames_text_opt|]. intros descr _.
  apply blames_bind; [apply blames_text_opt|]. intros ag E2.
  apply blames_bind; [apply blames_text_opt|]. intros ar E3.
  apply blames_bind; [u32 X|]. intros off _.
  apply blames_bind; [apply blames_rp|]. intros props E4.
  apply blames_bind; [apply blames_optional; intros; now apply blames_data_type|]. intros dt _.
  apply blames_bind; [apply blames_optional; intros; now apply blames_mwv|]. intros mw _.
  apply blames_bind; [apply blames_optional; intros; now apply blames_wc|]. intros wc _.
  apply blames_bind; [apply blames_optional; intros; now apply blames_read_action|]. intros ra _.
  apply blames_bind.
  { apply blames_optional. intros v c _ _. apply blames_collect. intros v' d _ Q. apply blames_field. now apply element_iff. }
  intros fields E5. apply blames_at. intros e E. unfold register_build in E. cbn [required ok_or bind rb_name rb_address_offset rb_properties] in E.
  assert (B4 : rp_parse cfg n = Ok props) by tot erase_rp. apply rp_parsed in B4. rewrite B4 in E. cbn [bind] in E.
  apply validated_err in E. unfold register_validate in E. apply when_err in E as [C E]. cbn in E.
  apply bind_err in E as [E|(_ & _ & E)].
  { apply when_err in E as [L E]. apply strict_iff in L. apply bind_err in E as [E|(_ & _ & E)].
    { apply check_dimable_err in E as [N ->]. cbn. split; [exact L|]. eapply mn_name; [|exact X|apply child_text_says; tot erase_child_text|exact N]. cbn; auto. }
    apply bind_err in E as [E|(_ & _ & E)]; apply iterM_opt_err in E as (s & -> & E).
    - apply check_name_err in E as [N ->]. cbn. split; [exact L|]. apply mn_group; auto. apply text_opt_some. tot erase_text_opt.
    - apply check_dimable_err in E as [N ->]. cbn. split; [exact L|]. apply mn_alternate; auto. apply text_opt_some. tot erase_text_opt. }
  destruct (attr "derivedFrom" n) as [p|] eqn:A.
  - apply when_err in E as [L E]. apply strict_iff in L. eapply misnamed_path; [|exact X|exact L|exact A|exact E]. cbn; auto.
  - destruct fields as [fs|]; [|discriminate]. apply check_err in E as [E ->]. apply negb_false_iff, andb_prop in E as [F L].
    destruct fs; [|discriminate]. apply strict_iff in L. cbn. conjs; auto; [now apply attr_none|].
    assert (P : optional (fun c => collect is_element (field_parse m cfg) (children c)) "fields" n = Ok (Some [])).
    { apply (erased _ _ _ (erase_optional _ (fun c => collect is_element (field_parse m cfg) (children c)) _ _ _ (fun v c => erase_collect is_element _ _ v 0 (children c) (fun v' d _ => erase_field m cfg v' d))) E5). }
    apply optional_some in P as (c & FC & P). exists c. split; [exact FC|]. apply elements_hollow. eapply collect_hollow; exact P.
Qed.
Lemma register_named m cfg w n i : register_info_at m cfg w n = LOk i -> says "name" n (r_name i).
Proof.
  intros H. assert (P : register_info_parse m cfg n = Ok i) by tot erase_register_info. unfold register_info_parse in P. binds P.
  unfold register_build in P. cbn [required ok_or bind rb_name rb_address_offset] in P. apply bind_ok in P as (? & _ & P).
  apply validated_ok in P as [-> _]. cbn. now apply child_text_says.
Qed.
Lemma blames_register m cfg w n : named "register" n -> blames (pc_level cfg) w n (register_at m cfg w n).
Proof. intros K. apply blames_array; [reflexivity|now apply blames_expect_ok| |apply register_named]. intros. now apply blames_register_info. Qed.

(** ** Clusters *)
Lemma blames_cluster_info cfg kids kids' w n : named "cluster" n -> blames (pc_level cfg) w n kids -> erase kids = kids' ->
  (kids' = Ok [] -> no_child "register" n /\ no_child "cluster" n) -> blames (pc_level cfg) w n (cluster_info_at cfg kids w n).
Proof.
  intros X BK EK HK. unfold cluster_info_at.
  apply blames_bind; [ct X|]. intros name E1.
  apply blames_bind; [apply blames_text_opt|]. intros descr _.
  apply blames_bind; [apply blames_text_opt|]. intros alt _.
  apply blames_bind; [apply blames_text_opt|]. intros hdr _.
  apply blames_bind; [u32 X|]. intros off _.
  apply blames_bind; [apply blames_rp|]. intros props E4.
  apply blames_bind; [exact BK|]. intros ch E5.
  apply blames_at. intros e E. unfold cluster_build in E. cbn [required ok_or bind cb_name cb_address_offset cb_default_properties cb_children] in E.
  assert (B4 : rp_parse cfg n = Ok props) by tot erase_rp. apply rp_parsed in B4. rewrite B4 in E. cbn [bind required ok_or] in E.
  apply validated_err in E. unfold cluster_validate in E. apply when_err in E as [C E]. cbn in E.
  apply bind_err in E as [E|(_ & _ & E)].
  { apply when_err in E as [L E]. apply strict_iff in L.
    apply check_dimable_err in E as [N ->]. cbn. split; [exact L|]. eapply mn_name; [|exact X|apply child_text_says; tot erase_child_text|exact N]. cbn; auto. }
  destruct (attr "derivedFrom" n) as [p|] eqn:A.
  - apply when_err in E as [L E]. apply strict_iff in L. eapply misnamed_path; [|exact X|exact L|exact A|exact E]. cbn; auto.
  - apply check_err in E as [E ->]. apply negb_false_iff, andb_prop in E as [F L]. destruct ch; [|discriminate]. apply strict_iff in L.
    assert (HK' : kids' = Ok []) by (rewrite <- EK, E5; reflexivity). destruct (HK HK').
    cbn. conjs; auto. now apply attr_none.
Qed.
Lemma cluster_named cfg kids w n i : cluster_info_at cfg kids w n = LOk i -> says "name" n (c_name i).
Proof.
  intros H. assert (P : cluster_info_parse cfg (erase kids) n = Ok i) by (eapply erased; [now apply erase_cluster_info|exact H]).
  unfold cluster_info_parse in P. binds P. unfold cluster_build in P. cbn [required ok_or bind cb_name cb_address_offset cb_children] in P.
  apply bind_ok in P as (? & _ & P). cbn [required ok_or bind] in P. apply validated_ok in P as [-> _]. cbn. now apply child_text_says.
Qed.
Lemma blames_rc m cfg n : an_element n -> forall w, blames (pc_level cfg) w n (rc_at m cfg w n).
Proof.
  induction n as [t a l IH|s|] using xml_tree_ind; intros K w; [|destruct K as (? & ? & ? & ?); discriminate..].
  cbn [rc_at tag]. destruct (seqb t "register") eqn:T1; [apply blames_map; apply blames_register; apply seqb_eq in T1 as ->; now exists a, l|].
  destruct (seqb t "cluster") eqn:T2.
  - apply blames_map. apply seqb_eq in T2. subst t. apply blames_array; [reflexivity|apply blames_expect_ok; now exists a, l| |apply cluster_named]. intros X.
    apply (blames_cluster_info cfg _ (collect is_rc (rc_parse m cfg) l)); [exact X| | |].
    + apply (blames_collect (pc_level cfg) is_rc w (Elem "cluster" a l)). intros v c I Q. cbn in I. rewrite Forall_forall in IH. apply IH; [exact I|].
      unfold is_rc in Q. apply orb_prop in Q as [Q|Q]; apply has_tag_named in Q; eapply named_element; exact Q.
    + apply erase_collect. intros. apply erase_rc.
    + intros P. apply (collect_hollow _ _ (Elem "cluster" a l)) in P. cbn in P. rewrite Forall_forall in P.
      split; intros t' a' l' EQ; injection EQ as <- <- <-; apply Forall_forall; intros c I N; apply has_tag_named in N; specialize (P c I); unfold is_rc in P;
      rewrite N in P; rewrite ?orb_true_r in P; discriminate.
  - apply blames_err. cbn. rewrite seqb_neq in *. split; [now exists a, l|]. auto.
Qed.

(** ** Peripherals and the device *)
Lemma blames_ab cfg w n : named "addressBlock" n -> blames (pc_level cfg) w n (ab_at cfg w n).
Proof.
  intros X. unfold ab_at. apply blames_bind; [u32 X|]. intros. apply blames_bind; [u32 X|]. intros.
  apply blames_elem_bind; [need X|]. intros v c G. cbn [fst snd]. destruct (child_at_place _ _ _ _ _ G) as (_ & _ & _ & N).
  apply blames_bind; [eapply blames_child; [exact G|]; now apply blames_ab_usage|]. intros.
  apply blames_bind; [apply blames_optional; intros; now apply blames_protection|]. intros.
  apply blames_at. intros e E. discriminate.
Qed.
Lemma blames_it cfg w n : named "interrupt" n -> blames (pc_level cfg) w n (it_at cfg w n).
Proof.
  intros X. unfold it_at. apply blames_bind; [now apply blames_expect_ok|]. intros. apply blames_bind; [ct X|]. intros.
  apply blames_bind; [apply blames_text_opt|]. intros. apply blames_bind; [u32 X|]. intros.
  apply blames_at. intros e E. discriminate.
Qed.
Lemma blames_peripheral_info m cfg w n : an_element n -> blames (pc_level cfg) w n (peripheral_info_at m cfg w n).
Proof.
  intros K. unfold peripheral_info_at. apply blames_bind; [apply blames_expect; [exact K|reflexivity]|]. intros u X. apply expected in X. clear K u.
  apply blames_bind; [ct X|]. intros name E1.
  do 8 (apply blames_bind; [apply blames_text_opt|]; intros ? _).
  apply blames_bind; [u64 X|]. intros base _.
  apply blames_bind; [apply blames_rp|]. intros props E4.
  apply blames_bind; [apply blames_collect; intros v c _ Q; apply blames_ab; now apply has_tag_named|]. intros ab _.
  apply blames_bind; [apply blames_collect; intros v c _ Q; apply blames_it; now apply has_tag_named|]. intros it _.
  apply blames_bind.
  { apply blames_optional. intros v c _ _. apply blames_collect. intros v' d _ Q. apply blames_rc. now apply element_iff. }
  intros regs E5. apply blames_at. intros e E. unfold peripheral_build in E. cbn [required ok_or bind pb_name pb_base_address pb_default_properties] in E.
  assert (B4 : rp_parse cfg n = Ok props) by tot erase_rp. apply rp_parsed in B4. rewrite B4 in E. cbn [bind] in E.
  apply validated_err in E. unfold peripheral_validate in E. apply when_err in E as [C E]. cbn in E.
  apply bind_err in E as [E|(_ & _ & E)].
  { apply when_err in E as [L E]. apply strict_iff in L.
    apply check_dimable_err in E as [N ->]. cbn. split; [exact L|]. eapply mn_name; [|exact X|apply child_text_says; tot erase_child_text|exact N]. cbn; auto. }
  destruct (attr "derivedFrom" n) as [p|] eqn:A.
  - apply when_err in E as [L E]. apply strict_iff in L. apply check_dimable_err in E as [N ->]. cbn. split; [exact L|].
    apply mn_origin; auto. now apply attr_some.
  - destruct regs as [rs|]; [|discriminate]. apply check_err in E as [E ->]. apply negb_false_iff, andb_prop in E as [F L].
    destruct rs; [|discriminate]. apply strict_iff in L. cbn. conjs; auto; [now apply attr_none|].
    assert (P : optional (fun c => collect is_element (rc_parse m cfg) (children c)) "registers" n = Ok (Some [])).
    { apply (erased _ _ _ (erase_optional _ (fun c => collect is_element (rc_parse m cfg) (children c)) _ _ _ (fun v c => erase_collect is_element _ _ v 0 (children c) (fun v' d _ => erase_rc m cfg d v'))) E5). }
    apply optional_some in P as (c & FC & P). exists c. split; [exact FC|]. apply elements_hollow. eapply collect_hollow; exact P.
Qed.
Lemma peripheral_named m cfg w n i : peripheral_info_at m cfg w n = LOk i -> says "name" n (p_name i).
Proof.
  intros H. assert (P : peripheral_info_parse m cfg n = Ok i) by tot erase_peripheral_info. unfold peripheral_info_parse in P. binds P.
  unfold peripheral_build in P. cbn [required ok_or bind pb_name pb_base_address] in P. apply bind_ok in P as (? & _ & P).
  apply validated_ok in P as [-> _]. cbn. now apply child_text_says.
Qed.
Lemma blames_peripheral m cfg w n : an_element n -> blames (pc_level cfg) w n (peripheral_at m cfg w n).
Proof.
  intros K. apply blames_array; [reflexivity|now apply blames_expect| |apply peripheral_named]. intros X. apply blames_peripheral_info.
  eapply named_element; exact X.
Qed.
Lemma blames_cpu cfg w n : named "cpu" n -> blames (pc_level cfg) w n (cpu_at cfg w n).
Proof.
  intros X. unfold cpu_at. apply blames_bind; [now apply blames_expect_ok|]. intros.
  do 2 (apply blames_bind; [ct X|]; intros).
  apply blames_elem_bind; [need X|]. intros v c G. cbn [fst snd]. destruct (child_at_place _ _ _ _ _ G) as (_ & _ & _ & N).
  apply blames_bind; [eapply blames_child; [exact G|]; now apply blames_endian|]. intros.
  do 2 (apply blames_bind; [apply blames_child_bool; [need X|reflexivity]|]; intros).
  do 7 (apply blames_bind; [apply blames_optional; intros; eapply blames_bool; [eassumption|reflexivity]|]; intros).
  apply blames_bind; [u32 X|]. intros. apply blames_bind; [apply blames_child_bool; [need X|reflexivity]|]. intros.
  do 2 (apply blames_bind; [apply blames_optional; intros v' c' K' _; eapply blames_num; [exact K'|reflexivity]|]; intros).
  apply blames_at. intros e E. discriminate.
Qed.
Lemma blames_device m cfg w n : named "device" n -> blames (pc_level cfg) w n (device_at m cfg w n).
Proof.
  intros X. unfold device_at. apply blames_bind; [now apply blames_expect_ok|]. intros u _.
  do 2 (apply blames_bind; [apply blames_text_opt|]; intros ? _).
  apply blames_bind; [ct X|]. intros name _.
  do 2 (apply blames_bind; [apply blames_text_opt|]; intros ? _).
  apply blames_bind; [apply blames_optional; intros v c N _; now apply blames_cpu|]. intros cpu _.
  do 2 (apply blames_bind; [apply blames_text_opt|]; intros ? _).
  apply blames_bind; [apply blames_rp|]. intros props E4.
  apply blames_elem_bind; [need X|]. intros v pe G. cbn [fst snd].
  apply blames_bind.
  { eapply blames_child; [exact G|]. apply blames_collect. intros v' c _ Q. apply blames_peripheral. now apply element_iff. }
  intros pers E5.
  apply blames_bind; [apply blames_text_opt|]. intros ver E6.
  apply blames_bind; [apply blames_text_opt|]. intros descr E7.
  apply blames_bind; [apply blames_optional; intros v' c' K' _; eapply blames_num; [exact K'|reflexivity]|]. intros bits E8.
  apply blames_bind; [apply blames_optional; intros v' c' K' _; eapply blames_num; [exact K'|reflexivity]|]. intros width E9.
  apply blames_at. intros e E. unfold device_build in E. cbn [required ok_or bind db_name db_version db_description db_address_unit_bits db_width db_default_properties db_peripherals] in E.
  assert (ST : forall {A} (k : string) (dflt : A) o e, required k (unless_strict (pc_level cfg) dflt o) = Err e -> o = None /\ pc_level cfg = Strict /\ e = EUninitialized k).
  { intros A k dflt o e0 H. destruct o; [discriminate|]. cbn in H. destruct (pc_level cfg) eqn:L; cbn in H; try discriminate. split; [reflexivity|]. split; [reflexivity|congruence]. }
  apply bind_err in E as [E|(? & _ & E)].
  { apply ST in E as (-> & L & ->). cbn. conjs; auto. apply text_opt_none. tot erase_text_opt. }
  apply bind_err in E as [E|(? & _ & E)].
  { apply ST in E as (-> & L & ->). cbn. conjs; auto. apply text_opt_none. tot erase_text_opt. }
  apply bind_err in E as [E|(? & _ & E)].
  { apply ST in E as (-> & L & ->). cbn. conjs; auto 6. left. eapply optional_none, erased; [apply erase_optional; intros; apply erase_num|exact E8]. }
  apply bind_err in E as [E|(? & _ & E)].
  { apply ST in E as (-> & L & ->). cbn. conjs; auto 7. left. eapply optional_none, erased; [apply erase_optional; intros; apply erase_num|exact E9]. }
  assert (B4 : rp_parse cfg n = Ok props) by tot erase_rp. apply rp_parsed in B4. rewrite B4 in E. cbn [bind required ok_or] in E.
  apply validated_err in E. unfold device_validate in E. apply when_err in E as [C E]. apply checked_iff in C. cbn in E.
  apply check_err in E as [E ->]. destruct pers; [|discriminate]. cbn. conjs; auto. exists pe. apply child_at_some in G.
  split; [now apply get_child_first|]. apply elements_hollow. eapply (collect_hollow is_element (peripheral_parse m cfg)).
  eapply erased; [apply erase_collect; intros; apply erase_peripheral|exact E5].
Qed.
