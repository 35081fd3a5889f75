(** C73: the parser reads a document as SpecRead says, and nothing else. *)
From Verif Require Import BaseFacts Num Types Names Validate Builders Arrays Xml Parse SpecNum NumProofs EnumProofs
  SpecValidate NameProofs ValidateProofs SpecBuild BuilderProofs SpecText SpecXml XmlFacts BitProofs SpecArray ArrayProofs IndexProofs SpecParse
  ParseProofs SpecShape ShapeProofs ParseAt AtProofs SpecFault FaultProofs SpecRead.

(** ** Members *)
Lemma says_text k n s : says k n s -> get_child_text_opt k n = Ok (Some s).
Proof.
  intros (c & F & C). unfold get_child_text_opt. apply get_child_first in F. apply get_text_content in C. now rewrite F, C.
Qed.
Lemma silent_text k n : silent k n -> get_child_text_opt k n = Ok None.
Proof.
  unfold get_child_text_opt. intros [N|(c & F & C)].
  - apply get_child_none in N. now rewrite N.
  - apply get_child_first in F. rewrite F. destruct (get_text_cases c) as [[s G]|G]; rewrite G; [|reflexivity].
    apply get_text_content in G. destruct (C s G).
Qed.
Lemma text_of_iff k n o : get_child_text_opt k n = Ok o <-> text_of k n o.
Proof.
  destruct o as [s|]; cbn; split; [apply text_opt_some|apply says_text|apply text_opt_none|apply silent_text].
Qed.
Lemma says_iff k n s : get_child_text k n = Ok s <-> says k n s.
Proof.
  split; [apply child_text_says|]. intros H. unfold get_child_text. now rewrite (says_text _ _ _ H).
Qed.
Lemma kept_forward k n o : text_of k n o -> text_kept k n (empty_str_to_none o).
Proof.
  destruct o as [[|c s]|]; cbn; auto. intros H. split; [discriminate|exact H].
Qed.
Lemma kept_backward k n o : text_kept k n o -> exists o', text_of k n o' /\ empty_str_to_none o' = o.
Proof.
  destruct o as [s|]; cbn.
  - intros [N H]. exists (Some s). split; [exact H|]. destruct s; [congruence|reflexivity].
  - intros [H|H]; [exists None|exists (Some ""%string)]; auto.
Qed.
Lemma the_iff {A} (f : xml -> res A) (R : xml -> A -> Prop) k n x : (forall c, first_child k n c -> (f c = Ok x <-> R c x)) ->
  (exists c, get_child_elem k n = Ok c /\ f c = Ok x) <-> the R k n x.
Proof.
  intros H. unfold get_child_elem, the. split; intros (c & F & K).
  - destruct (get_child k n) as [c'|] eqn:E; [|discriminate]. injection F as <-. apply get_child_first in E. exists c'.
    split; [exact E|]. now apply H.
  - exists c. split; [|now apply H]. apply get_child_first in F. now rewrite F.
Qed.
Lemma member_iff {A} (f : xml -> res A) (R : xml -> A -> Prop) k n o :
  (forall c x, first_child k n c -> (f c = Ok x <-> R c x)) -> optional f k n = Ok o <-> member R k n o.
Proof.
  intros H. destruct o as [x|]; cbn; split.
  - intros E. apply optional_some in E as (c & F & E). exists c. split; [exact F|]. now apply H.
  - intros (c & F & E). apply (H c x F) in E. unfold optional. apply get_child_first in F. rewrite F. cbn. now rewrite E.
  - apply optional_none.
  - intros N. unfold optional. apply get_child_none in N. now rewrite N.
Qed.
Lemma number_iff b n v : 0 < b -> num_parse b n = Ok v <-> number b n v.
Proof. apply num_parse_number. Qed.
Lemma pow32_pos : 0 < 2 ^ 32. Proof. reflexivity. Qed.
Lemma pow64_pos : 0 < 2 ^ 64. Proof. reflexivity. Qed.
Lemma pow64_eq : pow64 = 2 ^ 64. Proof. reflexivity. Qed.
Lemma flag_iff n b : bool_parse n = Ok b <-> holds_flag n b.
Proof.
  unfold bool_parse, holds_flag. rewrite bind_ok'. split; intros (s & H & K); exists s.
  - now rewrite <- get_text_content, <- parse_bool_spec.
  - now rewrite get_text_content, parse_bool_spec.
Qed.
Lemma word_iff {A} (f : string -> option A) e words n x : (forall s x, f s = Some x <-> In (s, x) words) ->
  enum_parse f e n = Ok x <-> holds_word words n x.
Proof.
  intros W. unfold enum_parse, holds_word. rewrite bind_ok'. split; intros (s & H & K); exists s.
  - rewrite <- get_text_content, <- W. split; [exact H|]. destruct (f s); [|discriminate]. cbn in K. congruence.
  - rewrite get_text_content. apply W in K. rewrite K. auto.
Qed.
Ltac words_tac L := intros s x; rewrite L; split;
  [intros ->; destruct x; cbn; tauto|cbn; intros H; repeat (destruct H as [H|H]; [injection H as <- <-; reflexivity|]); contradiction].
Lemma access_iff s x : access_parse s = Some x <-> In (s, x) access_words.
Proof. revert s x. words_tac access_text. Qed.
Lemma usage_iff s x : usage_parse s = Some x <-> In (s, x) usage_words.
Proof. revert s x. words_tac usage_text. Qed.
Lemma type_iff s x : data_type_parse s = Some x <-> In (s, x) type_words.
Proof. revert s x. words_tac data_type_text. Qed.
Lemma endian_iff s x : endian_parse s = Some x <-> In (s, x) endian_words.
Proof. revert s x. words_tac endian_text. Qed.
Lemma action_iff s x : read_action_parse s = Some x <-> In (s, x) action_words.
Proof. revert s x. words_tac read_action_text. Qed.
Lemma effect_iff s x : mwv_parse s = Some x <-> In (s, x) effect_words.
Proof. revert s x. words_tac mwv_text. Qed.
Lemma protection_iff s x : protection_parse s = Some x <-> In (s, x) protection_words.
Proof. revert s x. words_tac protection_text. Qed.
Lemma block_iff s x : ab_usage_parse s = Some x <-> In (s, x) block_words.
Proof. revert s x. words_tac ab_usage_text. Qed.
Lemma indexes_iff n l : dim_index_parse n = Ok l <-> holds_indexes n l.
Proof.
  unfold dim_index_parse, holds_indexes. rewrite bind_ok'. split; intros (s & H & K); exists s.
  - rewrite <- get_text_content, <- parse_indexes_spec. split; [exact H|]. destruct (parse_indexes s); [|discriminate]. cbn in K. congruence.
  - rewrite get_text_content. apply parse_indexes_spec in K. rewrite K. auto.
Qed.
Lemma attr_iff k n o : attr k n = o <-> attr_of k n o.
Proof.
  assert (S : forall s, attribute k n s -> attr k n = Some s).
  { intros s (t & a & l & b & c & -> & -> & F). cbn. induction F as [|[k' s'] b D F IH]; cbn.
    - rewrite String.eqb_refl. reflexivity.
    - cbn in D. destruct (String.eqb_spec k' k); [congruence|exact IH]. }
  assert (N : no_attribute k n -> attr k n = None).
  { intros H. destruct n as [t a l| |]; [|reflexivity..]. cbn. specialize (H t a l eq_refl). clear S.
    induction H as [|[k' s'] b D F IH]; cbn; [reflexivity|]. cbn in D. destruct (String.eqb_spec k' k); [congruence|exact IH]. }
  destruct o as [s|]; cbn; split; auto using attr_some, attr_none.
Qed.

(** ** Lists *)
Lemma each_iff {A} (q : xml -> bool) (P : xml -> Prop) (f : xml -> res A) (R : xml -> A -> Prop) l : forall r,
  (forall c, In c l -> (q c = true <-> P c)) -> (forall c x, In c l -> q c = true -> (f c = Ok x <-> R c x)) ->
  collect q f l = Ok r <-> each P R l r.
Proof.
  induction l as [|c l IH]; intros r Q H; cbn.
  - split; [intros E; injection E as <-; constructor|intros E; inversion E; reflexivity].
  - assert (IH' : forall r, collect q f l = Ok r <-> each P R l r) by (intros; apply IH; intros; [apply Q|apply H]; cbn; auto).
    clear IH. assert (Qc := Q c (or_introl eq_refl)). assert (Hc := fun x => H c x (or_introl eq_refl)).
    destruct (q c) eqn:E.
    + split.
      * intros K. apply bind_ok in K as (x & F & K). apply bind_ok in K as (r' & G & K). injection K as <-.
        apply each_take; [now apply Qc|now apply Hc|now apply IH'].
      * intros K. inversion K as [|c' l' r' N K'|c' x l' r' Pc Rc K']; subst; [destruct N; now apply Qc|].
        apply Hc in Rc; [|reflexivity]. rewrite Rc. cbn [bind]. apply IH' in K'. rewrite K'. reflexivity.
    + rewrite IH'. split.
      * intros K. apply each_skip; [|exact K]. intros Pc. apply Qc in Pc. discriminate.
      * intros K. inversion K as [|c' l' r' N K'|c' x l' r' Pc Rc K']; subst; [exact K'|]. apply Qc in Pc. discriminate.
Qed.
Lemma element_iff n : is_element n = true <-> an_element n.
Proof.
  unfold an_element. destruct n; cbn; split; try discriminate; eauto; intros (t & a & l & E); discriminate.
Qed.
Lemma tag_named k n : is_element n = true -> seqb (tag n) k = true <-> named k n.
Proof. intros E. rewrite <- has_tag_named. destruct n; cbn in *; try discriminate. tauto. Qed.
Lemma negb_iff (b : bool) (P : Prop) : (b = true <-> P) -> negb b = true <-> ~ P.
Proof. intros <-. destruct b; cbn; split; intros K; try discriminate; try reflexivity. now destruct K. Qed.
Lemma and_iff (a b : bool) (P Q : Prop) : (a = true <-> P) -> (a = true -> (b = true <-> Q)) -> a && b = true <-> P /\ Q.
Proof. intros H K. rewrite Bool.andb_true_iff. split; intros [X Y]; assert (X' := X); apply H in X'; (split; [tauto|]; apply K; tauto). Qed.

(** ** Each kind of member *)
Lemma opt32_iff k n o : optional (num_parse pow32) k n = Ok o <-> member (number (2 ^ 32)) k n o.
Proof. apply member_iff. intros. now apply number_iff. Qed.
Lemma opt64_iff k n o : optional (num_parse pow64) k n = Ok o <-> member (number (2 ^ 64)) k n o.
Proof. apply member_iff. intros. now apply number_iff. Qed.
Lemma counts32_iff k n v : get_child_u32 k n = Ok v <-> counts (2 ^ 32) k n v.
Proof. unfold get_child_u32. rewrite bind_ok'. apply the_iff. intros. now apply number_iff. Qed.
Lemma counts64_iff k n v : get_child_u64 k n = Ok v <-> counts (2 ^ 64) k n v.
Proof. unfold get_child_u64. rewrite bind_ok'. apply the_iff. intros. now apply number_iff. Qed.
Lemma the_flag_iff k n b : get_child_bool k n = Ok b <-> the holds_flag k n b.
Proof. unfold get_child_bool. rewrite bind_ok'. apply the_iff. intros. apply flag_iff. Qed.
Lemma opt_flag_iff k n o : optional bool_parse k n = Ok o <-> member holds_flag k n o.
Proof. apply member_iff. intros. apply flag_iff. Qed.
Lemma opt_access_iff k n o : optional access_parse_node k n = Ok o <-> member (holds_word access_words) k n o.
Proof. apply member_iff. intros. apply word_iff, access_iff. Qed.
Lemma opt_usage_iff k n o : optional usage_parse_node k n = Ok o <-> member (holds_word usage_words) k n o.
Proof. apply member_iff. intros. apply word_iff, usage_iff. Qed.
Lemma opt_type_iff k n o : optional data_type_parse_node k n = Ok o <-> member (holds_word type_words) k n o.
Proof. apply member_iff. intros. apply word_iff, type_iff. Qed.
Lemma opt_action_iff k n o : optional read_action_parse_node k n = Ok o <-> member (holds_word action_words) k n o.
Proof. apply member_iff. intros. apply word_iff, action_iff. Qed.
Lemma opt_effect_iff k n o : optional mwv_parse_node k n = Ok o <-> member (holds_word effect_words) k n o.
Proof. apply member_iff. intros. apply word_iff, effect_iff. Qed.
Lemma opt_protection_iff k n o : optional protection_parse_node k n = Ok o <-> member (holds_word protection_words) k n o.
Proof. apply member_iff. intros. apply word_iff, protection_iff. Qed.
Lemma opt_indexes_iff k n o : optional dim_index_parse k n = Ok o <-> member holds_indexes k n o.
Proof. apply member_iff. intros. apply indexes_iff. Qed.
Lemma the_endian_iff k n x : bind (get_child_elem k n) endian_parse_node = Ok x <-> the (holds_word endian_words) k n x.
Proof. rewrite bind_ok'. apply the_iff. intros. apply word_iff, endian_iff. Qed.
Lemma the_block_iff k n x : bind (get_child_elem k n) ab_usage_parse_node = Ok x <-> the (holds_word block_words) k n x.
Proof. rewrite bind_ok'. apply the_iff. intros. apply word_iff, block_iff. Qed.
Lemma tag_iff t n u : expect_tag t n = Ok u <-> named t n.
Proof. destruct u. unfold expect_tag. rewrite check_ok. apply has_tag_named. Qed.

(** Applying all of these. *)
Ltac fwd := repeat match goal with
  | H : get_child_text _ _ = Ok _ |- _ => apply says_iff in H
  | H : get_child_text_opt _ _ = Ok _ |- _ => apply text_of_iff in H
  | H : get_child_u32 _ _ = Ok _ |- _ => apply counts32_iff in H
  | H : get_child_u64 _ _ = Ok _ |- _ => apply counts64_iff in H
  | H : get_child_bool _ _ = Ok _ |- _ => apply the_flag_iff in H
  | H : expect_tag _ _ = Ok _ |- _ => apply tag_iff in H
  | H : optional (num_parse pow32) _ _ = Ok _ |- _ => apply opt32_iff in H
  | H : optional (num_parse pow64) _ _ = Ok _ |- _ => apply opt64_iff in H
  | H : optional bool_parse _ _ = Ok _ |- _ => apply opt_flag_iff in H
  | H : optional access_parse_node _ _ = Ok _ |- _ => apply opt_access_iff in H
  | H : optional usage_parse_node _ _ = Ok _ |- _ => apply opt_usage_iff in H
  | H : optional data_type_parse_node _ _ = Ok _ |- _ => apply opt_type_iff in H
  | H : optional read_action_parse_node _ _ = Ok _ |- _ => apply opt_action_iff in H
  | H : optional mwv_parse_node _ _ = Ok _ |- _ => apply opt_effect_iff in H
  | H : optional protection_parse_node _ _ = Ok _ |- _ => apply opt_protection_iff in H
  | H : optional dim_index_parse _ _ = Ok _ |- _ => apply opt_indexes_iff in H
  end.
Ltac kept := repeat match goal with
  | H : text_kept _ _ _ |- _ => apply kept_backward in H as (? & ? & ?)
  end.
Ltac step := apply bind_ok'; eexists; split.
Ltac bwd1 := first
  [ apply says_iff; eassumption | apply text_of_iff; eassumption | apply counts32_iff; eassumption | apply counts64_iff; eassumption
  | apply the_flag_iff; eassumption | refine (proj2 (tag_iff _ _ tt) _); eassumption | apply opt32_iff; eassumption | apply opt64_iff; eassumption
  | apply opt_flag_iff; eassumption | apply opt_access_iff; eassumption | apply opt_usage_iff; eassumption | apply opt_type_iff; eassumption
  | apply opt_action_iff; eassumption | apply opt_effect_iff; eassumption | apply opt_protection_iff; eassumption
  | apply opt_indexes_iff; eassumption ].
Ltac bwd := repeat (step; [bwd1|]).

(** ** Elements *)
Lemma props_iff cfg n p : rp_parse cfg n = Ok p <-> props_read (pc_level cfg) n p.
Proof.
  unfold rp_parse. split.
  - intros H. binds H. apply rp_build_ok in H as [-> H]. fwd. constructor; assumption.
  - intros []. bwd. apply rp_build_ok. destruct p; auto.
Qed.
Lemma filter_app {A} (f : A -> bool) l l' : filter f (l ++ l') = filter f l ++ filter f l'.
Proof. induction l; cbn; [reflexivity|]. destruct (f a); cbn; congruence. Qed.
Lemma filter_none {A} (f : A -> bool) l : filter f l = [] <-> Forall (fun x => f x = false) l.
Proof.
  induction l as [|a l IH]; cbn; [split; auto|]. destruct (f a) eqn:E; split; intros H; try discriminate.
  - inversion H. congruence.
  - constructor; [exact E|now apply IH].
  - apply IH. now inversion H.
Qed.
Lemma not_element x : is_element x = false <-> ~ an_element x.
Proof. rewrite <- element_iff. destruct (is_element x); split; congruence. Qed.
Lemma only_iff n c : filter is_element (children n) = [c] <-> only_element n c.
Proof.
  unfold only_element. split.
  - destruct n as [t a l| |]; cbn [children]; try discriminate. intros H. exists t, a.
    assert (exists pre post, l = pre ++ c :: post /\ is_element c = true /\ Forall (fun x => is_element x = false) (pre ++ post))
      as (pre & post & -> & E & F).
    { induction l as [|x l IH]; cbn in H; [discriminate|]. destruct (is_element x) eqn:E.
      - injection H as -> H. apply filter_none in H. exists [], l. auto.
      - destruct (IH H) as (pre & post & -> & E' & F). exists (x :: pre), post. conjs; auto. now constructor. }
    exists pre, post. split; [reflexivity|]. split; [now apply element_iff|].
    eapply Forall_impl; [|exact F]. intros x. apply not_element.
  - intros (t & a & pre & post & -> & E & F). cbn [children].
    assert (G : Forall (fun x => is_element x = false) (pre ++ post)) by (eapply Forall_impl; [|exact F]; intros x; apply not_element).
    apply Forall_app in G as [G1 G2]. apply filter_none in G1, G2. apply element_iff in E.
    rewrite filter_app. cbn. now rewrite E, G1, G2.
Qed.
Lemma only_first n c k : only_element n c -> named k c -> get_child k n = Some c.
Proof.
  intros (t & a & pre & post & -> & _ & F) K. apply get_child_first. exists t, a, pre, post. split; [reflexivity|]. split; [exact K|].
  apply Forall_app in F as [F _]. eapply Forall_impl; [|exact F]. cbn. intros x N (b & l & ->). apply N. now exists k, b, l.
Qed.
Lemma constraint_iff n w : wc_parse n = Ok w <-> constraint_read n w.
Proof.
  unfold wc_parse. split.
  - destruct (filter is_element (children n)) as [|c [|]] eqn:F; try discriminate. apply only_iff in F.
    assert (E : is_element c = true) by (destruct F as (t & a & pre & post & _ & E & _); now apply element_iff).
    assert (G : forall k, named k c -> get_child_elem k n = Ok c)
      by (intros k K; unfold get_child_elem; now rewrite (only_first _ _ _ F K)).
    destruct (seqb (tag c) "writeAsRead") eqn:T1; [|destruct (seqb (tag c) "useEnumeratedValues") eqn:T2;
      [|destruct (seqb (tag c) "range") eqn:T3; [|discriminate]]]; intros H;
      match goal with T : seqb _ _ = true |- _ => assert (K := T); apply seqb_eq in T; rewrite T in H; apply tag_named in K; [|exact E] end.
    + apply rmap_ok in H as (b & H & ->). unfold get_child_bool in H. rewrite (G _ K) in H. cbn in H.
      apply flag_iff in H. now apply cr_as_read with c.
    + apply rmap_ok in H as (b & H & ->). unfold get_child_bool in H. rewrite (G _ K) in H. cbn in H.
      apply flag_iff in H. now apply cr_values with c.
    + rewrite (G _ K) in H. cbn [bind] in H. unfold wc_range_parse in H. binds H. fwd. injection H as <-. now apply cr_range with c.
  - assert (S : forall c k, only_element n c -> named k c -> filter is_element (children n) = [c] /\ tag c = k /\ get_child_elem k n = Ok c).
    { intros c k F K. split; [now apply only_iff|]. split; [destruct K as (a & l & ->); reflexivity|].
      unfold get_child_elem. now rewrite (only_first _ _ _ F K). }
    intros [c b F K H|c b F K H|c lo hi F K H1 H2]; destruct (S _ _ F K) as (-> & -> & G); cbn [seqb String.eqb Ascii.eqb Bool.eqb].
    + cbn. unfold get_child_bool. rewrite G. cbn. apply flag_iff in H. now rewrite H.
    + cbn. unfold get_child_bool. rewrite G. cbn. apply flag_iff in H. now rewrite H.
    + cbn. rewrite G. cbn. unfold wc_range_parse. bwd. reflexivity.
Qed.
Lemma bits_iff m n b : bit_range_parse m n = Ok b <-> bits_read m n b.
Proof.
  split.
  - intros H. apply bits_ok in H as [(h & l & t & W & L & F & ->)|[(t & W & M & ->)|(o & w & W & ->)]].
    + now apply br_ends. + now apply br_all. + now apply br_size.
  - intros [h l t W L F|t M W|o w W].
    + rewrite (bits_ends m n h l t W). destruct (written_bounds _ _ _ _ W). unfold pow32 in *. apply bit_range_of_ok; unfold pow32; lia.
    + rewrite (bits_ends m n _ _ t W), bit_range_of_full, M. reflexivity.
    + now apply bits_size.
Qed.
Lemma default_iff n o : ok_of (get_child_bool "isDefault" n) = Ok o <->
  match o with Some b => the holds_flag "isDefault" n b | None => forall b, ~ the holds_flag "isDefault" n b end.
Proof.
  assert (P : forall p, get_child_bool "isDefault" n <> Panic p).
  { intros p. unfold get_child_bool, get_child_elem. destruct (get_child _ n) as [c|]; [|discriminate]. cbn.
    unfold bool_parse. destruct (get_text_cases c) as [[s ->] | ->]; [|discriminate]. cbn. unfold parse_bool.
    repeat destruct (seqb _ _); discriminate. }
  destruct (get_child_bool "isDefault" n) as [b|e|p] eqn:E; [| |destruct (P p eq_refl)]; cbn.
  - assert (E' := proj1 (the_flag_iff _ _ _) E). split.
    + intros H. injection H as <-. exact E'.
    + destruct o as [b'|]; [|intros H; destruct (H b E')]. intros H. apply the_flag_iff in H. congruence.
  - split.
    + intros H. injection H as <-. intros b H. apply the_flag_iff in H. congruence.
    + destruct o as [b'|]; [|reflexivity]. intros H. apply the_flag_iff in H. congruence.
Qed.
Lemma value_iff cfg n e : ev_item cfg n = Ok e <-> value_read (pc_level cfg) n e.
Proof.
  unfold ev_item, ev_parse, ev_build. split.
  - destruct (has_tag _ n); [|discriminate]. intros H. binds H. apply validated_ok in H as [-> H]. apply ev_validate_ok in H.
    match goal with H : ok_of _ = Ok _ |- _ => apply default_iff in H end.
    repeat match goal with H : required _ _ = Ok _ |- _ => apply required_ok in H; cbn in H end. fwd.
    constructor; cbn; auto using kept_forward. congruence.
  - intros [T N D V F K]. assert (T' := proj2 (has_tag_named _ _) T). rewrite T'. kept. bwd.
    step; [instantiate (1 := ev_is_default e); apply default_iff; exact F|]. cbn. apply validated_ok. rewrite <- ev_validate_ok in K.
    destruct e; cbn in *. subst. auto.
Qed.
Lemma set_item_iff c : evs_item c = true <-> a_value_in_set c.
Proof.
  unfold evs_item, a_value_in_set. apply and_iff; [apply element_iff|]. intros E.
  rewrite !Bool.negb_orb, !Bool.andb_true_iff. rewrite !(negb_iff _ _ (tag_named _ _ E)). tauto.
Qed.
Lemma values_iff cfg n e : evs_parse cfg n = Ok e <-> values_read (pc_level cfg) n e.
Proof.
  assert (C : forall r, collect evs_item (ev_item cfg) (children n) = Ok r <-> each a_value_in_set (value_read (pc_level cfg)) (children n) r)
    by (intros r; apply each_iff; intros; [apply set_item_iff|apply value_iff]).
  unfold evs_parse, evs_build. split.
  - intros H. binds H. apply validated_ok in H as [-> H]. apply evs_validate_ok in H.
    match goal with H : collect _ _ _ = Ok _ |- _ => apply C in H end. fwd.
    constructor; cbn; auto using kept_forward. now apply attr_iff.
  - intros [T N U D V K]. kept. bwd. step; [apply C; eassumption|]. apply validated_ok. rewrite <- evs_validate_ok in K.
    apply attr_iff in D. destruct e; cbn in *. subst. auto.
Qed.
Lemma array_index_iff cfg n d : dai_parse cfg n = Ok d <-> array_index_read (pc_level cfg) n d.
Proof.
  assert (C : forall r, collect (fun t => is_element t && negb (seqb (tag t) "headerEnumName")) (ev_item cfg) (children n) = Ok r <->
                each (fun c => an_element c /\ ~ named "headerEnumName" c) (value_read (pc_level cfg)) (children n) r).
  { intros r. apply each_iff; intros; [|apply value_iff]. apply and_iff; [apply element_iff|]. intros E. apply negb_iff. now apply tag_named. }
  unfold dai_parse. split.
  - intros H. binds H. injection H as <-. match goal with H : collect _ _ _ = Ok _ |- _ => apply C in H end. fwd. now constructor.
  - intros [N V]. bwd. step; [apply C; eassumption|]. now destruct d.
Qed.
Lemma indexes_nonempty c l : holds_indexes c l -> l <> [].
Proof.
  intros (s & _ & [A B a b _ _ _ _ _ L K _|a b _ _ L K _|_ [H _]]) ->; [cbn in K; lia|cbn in K; lia|now apply H].
Qed.
Lemma dim_iff cfg n d : de_parse cfg n = Ok d <-> dim_read (pc_level cfg) n d.
Proof.
  assert (C : forall o, optional (dai_parse cfg) "dimArrayIndex" n = Ok o <-> member (array_index_read (pc_level cfg)) "dimArrayIndex" n o)
    by (intros o; apply member_iff; intros; apply array_index_iff).
  unfold de_parse, de_build. split.
  - intros H. binds H. apply validated_ok in H as [-> _].
    match goal with H : optional (dai_parse cfg) _ _ = Ok _ |- _ => apply C in H end.
    repeat match goal with H : required _ _ = Ok _ |- _ => apply required_ok in H; cbn in H; injection H as -> end. fwd.
    constructor; cbn; auto using kept_forward.
    destruct a1 as [[|i l]|]; cbn in *; auto. destruct Eb1 as (c & _ & H). now apply indexes_nonempty in H.
  - intros [D I X N A]. kept. bwd. step; [apply C; eassumption|]. cbn.
    destruct d as [dd di dx dn da]; cbn in *. subst. destruct dx as [[|i l]|]; cbn; auto.
    destruct X as (c & _ & X). now apply indexes_nonempty in X.
Qed.
Lemma array_iff {A} cfg t (name : A -> string) f (R : xml -> A -> Prop) n x :
  (forall i, named t n -> (f n = Ok i <-> R n i)) ->
  parse_array cfg t name f n = Ok x <-> array_read (pc_level cfg) t name R n x.
Proof.
  intros H. unfold parse_array. split.
  - intros K. apply bind_ok in K as (u & T & K). apply tag_iff in T. apply bind_ok in K as (i & F & K). apply (H _ T) in F.
    destruct (get_child "dimIncrement" n) as [c|] eqn:G; cbn [is_some] in K.
    + apply bind_ok in K as (d & D & K). apply bind_ok in K as ([] & P & K). apply bind_ok in K as (u' & X & K). injection K as <-.
      apply dim_iff in D. apply check_ok, contains_spec in P. apply ar_many; auto. intros l E. rewrite E in X.
      destruct u'. apply check_ok in X. apply N.eqb_eq in X. symmetry. exact X.
    + injection K as <-. apply ar_one; auto. now apply get_child_none.
  - intros [i T F N|i d T F D P X].
    + step; [exact (proj2 (tag_iff _ _ tt) T)|]. step; [apply H; eassumption|]. apply get_child_none in N. rewrite N. reflexivity.
    + step; [exact (proj2 (tag_iff _ _ tt) T)|]. step; [apply H; eassumption|].
      assert (G : exists c, get_child "dimIncrement" n = Some c)
        by (destruct D as [_ (c & I & _) _ _ _]; exists c; now apply get_child_first).
      destruct G as [c G]. rewrite G. cbn [is_some]. step; [apply dim_iff; exact D|].
      step; [instantiate (1 := tt); apply check_ok, contains_spec; exact P|].
      step; [|reflexivity]. instantiate (1 := tt). destruct (de_index d) as [l|] eqn:E; [|reflexivity].
      apply check_ok. apply N.eqb_eq. symmetry. now apply X.
Qed.
Lemma field_iff m cfg n f : named "field" n ->
  field_info_parse m cfg n = Ok f <-> field_read m (pc_level cfg) (pc_ignore_enums cfg) n f.
Proof.
  intros T.
  assert (C : forall o, optional wc_parse "writeConstraint" n = Ok o <-> member constraint_read "writeConstraint" n o)
    by (intros o; apply member_iff; intros; apply constraint_iff).
  assert (V : forall r, collect (has_tag "enumeratedValues") (evs_parse cfg) (children n) = Ok r <->
                each (named "enumeratedValues") (values_read (pc_level cfg)) (children n) r)
    by (intros r; apply each_iff; intros; [apply has_tag_named|apply values_iff]).
  unfold field_info_parse, field_build. split.
  - intros H. binds H. apply validated_ok in H as [-> H]. apply field_validate_ok in H.
    match goal with H : bit_range_parse _ _ = Ok _ |- _ => apply bits_iff in H end.
    repeat match goal with H : required _ _ = Ok _ |- _ => apply required_ok in H; cbn in H; injection H as -> end. fwd.
    constructor; cbn; auto using kept_forward.
    + destruct (pc_ignore_enums cfg); cbn in *; [congruence|now apply C].
    + destruct (pc_ignore_enums cfg); cbn in *; [congruence|now apply V].
    + now apply attr_iff.
  - intros [N D B A E W Ra Vs Df K]. kept. bwd. step; [apply bits_iff; eassumption|]. bwd.
    step; [instantiate (1 := f_write_constraint f); destruct (pc_ignore_enums cfg); cbn; [now rewrite W|now apply C]|]. bwd.
    step; [instantiate (1 := f_enumerated_values f); destruct (pc_ignore_enums cfg); cbn; [now rewrite Vs|now apply V]|].
    cbn. apply validated_ok. rewrite <- field_validate_ok in K. apply attr_iff in Df. destruct f; cbn in *. subst. auto.
Qed.
Lemma register_iff m cfg n r : named "register" n ->
  register_info_parse m cfg n = Ok r <-> register_read m (pc_level cfg) (pc_ignore_enums cfg) n r.
Proof.
  intros T.
  assert (C : forall o, optional wc_parse "writeConstraint" n = Ok o <-> member constraint_read "writeConstraint" n o)
    by (intros o; apply member_iff; intros; apply constraint_iff).
  assert (V : forall o, mapM_opt (fun fs => collect is_element (field_parse m cfg) (children fs)) (get_child "fields" n) = Ok o <->
     member (fun c => each an_element (array_read (pc_level cfg) "field" f_name (field_read m (pc_level cfg) (pc_ignore_enums cfg))) (children c))
       "fields" n o).
  { intros o. apply (member_iff (fun fs => collect is_element (field_parse m cfg) (children fs))). intros c x _.
    apply each_iff; intros; [apply element_iff|]. apply array_iff. intros. now apply field_iff. }
  unfold register_info_parse, register_build. split.
  - intros H. binds H. apply validated_ok in H as [-> H]. apply register_validate_ok in H.
    match goal with H : rp_parse _ _ = Ok _ |- _ => apply props_iff in H end.
    match goal with H : rp_build _ _ = Ok _ |- _ => apply rp_build_ok in H as [-> ?] end.
    repeat match goal with H : required _ _ = Ok _ |- _ => apply required_ok in H; cbn in H; injection H as -> end. fwd.
    constructor; cbn; auto; [now apply C|now apply V|now apply attr_iff].
  - intros [N Dn D G Al O P Dt E W Ra Fs Df K]. bwd. step; [apply props_iff; eassumption|]. bwd.
    step; [apply C; eassumption|]. bwd. step; [apply V; eassumption|]. cbn.
    apply rp_bind. split; [now destruct P|]. apply validated_ok. rewrite <- register_validate_ok in K. apply attr_iff in Df.
    destruct r; cbn in *. subst. auto.
Qed.
Lemma cluster_iff cfg kids (R : xml -> register_cluster -> Prop) n c :
  (forall r, kids = Ok r <-> each (fun x => named "register" x \/ named "cluster" x) R (children n) r) ->
  cluster_info_parse cfg kids n = Ok c <-> cluster_read (pc_level cfg) R n c.
Proof.
  intros V. unfold cluster_info_parse, cluster_build. split.
  - intros H. binds H. apply validated_ok in H as [-> H]. apply cluster_validate_ok in H.
    match goal with H : rp_parse _ _ = Ok _ |- _ => apply props_iff in H end.
    match goal with H : rp_build _ _ = Ok _ |- _ => apply rp_build_ok in H as [-> ?] end.
    repeat match goal with H : required _ _ = Ok _ |- _ => apply required_ok in H; cbn in H; injection H as -> end. fwd.
    constructor; cbn; auto using kept_forward; [now apply V|now apply attr_iff].
  - intros [N D Al H O P Ch Df K]. kept. bwd. step; [apply props_iff; eassumption|].
    step; [apply V; eassumption|]. cbn. apply rp_bind. split; [now destruct P|]. apply validated_ok.
    rewrite <- cluster_validate_ok in K. apply attr_iff in Df. destruct c; cbn in *. subst. auto.
Qed.
Lemma rc_kind_iff x : is_rc x = true <-> named "register" x \/ named "cluster" x.
Proof. unfold is_rc. now rewrite Bool.orb_true_iff, !has_tag_named. Qed.
Lemma block_read_iff m cfg n : forall rc, rc_parse m cfg n = Ok rc <-> block_read m (pc_level cfg) (pc_ignore_enums cfg) n rc.
Proof.
  induction n as [t a l IH|s|] using xml_tree_ind; intros rc.
  - cbn [rc_parse tag]. rewrite Forall_forall in IH.
    assert (Vr : forall x, register_parse m cfg (Elem t a l) = Ok x <->
       array_read (pc_level cfg) "register" r_name (register_read m (pc_level cfg) (pc_ignore_enums cfg)) (Elem t a l) x)
      by (intros x; apply array_iff; intros; now apply register_iff).
    assert (Vc : forall x, parse_array cfg "cluster" c_name (cluster_info_parse cfg (collect is_rc (rc_parse m cfg) l)) (Elem t a l) = Ok x <->
       array_read (pc_level cfg) "cluster" c_name (cluster_read (pc_level cfg) (block_read m (pc_level cfg) (pc_ignore_enums cfg))) (Elem t a l) x).
    { intros x. apply array_iff. intros i _. apply cluster_iff. intros r. apply each_iff; intros; [apply rc_kind_iff|]. now apply IH. }
    assert (Tag : forall k, named k (Elem t a l) -> t = k) by (intros k (b & k' & E); congruence).
    split.
    + destruct (seqb t "register") eqn:T1; [|destruct (seqb t "cluster") eqn:T2; [|discriminate]]; intros H;
        apply rmap_ok in H as (x & H & ->); [apply bk_register; now apply Vr|apply bk_cluster; now apply Vc].
    + intros [r H|c H].
      * assert (t = "register"%string) by (apply Tag; now destruct H). subst t. cbn [seqb]. rewrite seqb_refl. apply Vr in H. now rewrite H.
      * assert (t = "cluster"%string) by (apply Tag; now destruct H). subst t. apply Vc in H. cbn. cbn in H. now rewrite H.
  - split; [discriminate|]. intros [r H|c H]; destruct H as [i (b & k & E)|i d (b & k & E)]; discriminate.
  - split; [discriminate|]. intros [r H|c H]; destruct H as [i (b & k & E)|i d (b & k & E)]; discriminate.
Qed.
Lemma address_block_iff cfg n a : ab_parse cfg n = Ok a <-> address_block_read n a.
Proof.
  unfold ab_parse, ab_build. split.
  - intros H. binds H. apply validated_ok in H as [-> _].
    assert (U : bind (get_child_elem "usage" n) ab_usage_parse_node = Ok a3) by (apply bind_ok'; eauto).
    apply the_block_iff in U.
    repeat match goal with H : required _ _ = Ok _ |- _ => apply required_ok in H; cbn in H; injection H as -> end. fwd.
    now constructor.
  - intros [O S U P]. apply the_block_iff in U. apply bind_ok' in U as (c & G & U). bwd. step; [exact G|]. step; [exact U|]. bwd. cbn.
    now destruct a.
Qed.
Lemma interrupt_iff cfg n i : named "interrupt" n -> it_parse cfg n = Ok i <-> interrupt_read n i.
Proof.
  intros T. unfold it_parse, it_build. split.
  - intros H. binds H. apply validated_ok in H as [-> _].
    repeat match goal with H : required _ _ = Ok _ |- _ => apply required_ok in H; cbn in H; injection H as -> end. fwd.
    now constructor.
  - intros [N D V]. bwd. cbn. now destruct i.
Qed.
Lemma peripheral_iff m cfg n p : named "peripheral" n ->
  peripheral_info_parse m cfg n = Ok p <-> peripheral_read m (pc_level cfg) (pc_ignore_enums cfg) n p.
Proof.
  intros T.
  assert (B : forall r, collect (has_tag "addressBlock") (ab_parse cfg) (children n) = Ok r <->
     each (named "addressBlock") address_block_read (children n) r)
    by (intros r; apply each_iff; intros; [apply has_tag_named|apply address_block_iff]).
  assert (I : forall r, collect (has_tag "interrupt") (it_parse cfg) (children n) = Ok r <->
     each (named "interrupt") interrupt_read (children n) r)
    by (intros r; apply each_iff; intros; [apply has_tag_named|now apply interrupt_iff, has_tag_named]).
  assert (V : forall o, mapM_opt (fun rs => collect is_element (rc_parse m cfg) (children rs)) (get_child "registers" n) = Ok o <->
     member (fun c => each an_element (block_read m (pc_level cfg) (pc_ignore_enums cfg)) (children c)) "registers" n o).
  { intros o. apply (member_iff (fun rs => collect is_element (rc_parse m cfg) (children rs))). intros c x _.
    apply each_iff; intros; [apply element_iff|apply block_read_iff]. }
  unfold peripheral_info_parse, peripheral_build. split.
  - intros H. binds H. apply validated_ok in H as [-> H]. apply peripheral_validate_ok in H.
    match goal with H : rp_parse _ _ = Ok _ |- _ => apply props_iff in H end.
    match goal with H : rp_build _ _ = Ok _ |- _ => apply rp_build_ok in H as [-> ?] end.
    match goal with H : mapM_opt _ _ = Ok _ |- _ => apply V in H end.
    match goal with H : collect _ (ab_parse _) _ = Ok _ |- _ => apply B in H end.
    match goal with H : collect _ (it_parse _) _ = Ok _ |- _ => apply I in H end.
    repeat match goal with H : required _ _ = Ok _ |- _ => apply required_ok in H; cbn in H; injection H as -> end. fwd.
    constructor; cbn; auto using kept_forward; [|now apply attr_iff].
    destruct a11; cbn; split; auto; discriminate.
  - intros [N Dn Ve De Al Gr Pre App Hd Ba P [Bl Bn] It Rg Df K]. kept. bwd. step; [apply props_iff; eassumption|].
    step; [apply B; eassumption|]. step; [apply I; eassumption|]. step; [apply V; eassumption|].
    cbn. apply rp_bind. split; [now destruct P|]. apply validated_ok. rewrite <- peripheral_validate_ok in K. apply attr_iff in Df.
    destruct p as [? ? ? ? ? ? ? ? ? ? ? bs ? ? ?]; cbn in *. subst. destruct bs as [[|b bs]|]; cbn; auto. now destruct Bn.
Qed.
Lemma cpu_iff cfg n c : cpu_parse cfg n = Ok c <-> cpu_read n c.
Proof.
  unfold cpu_parse, cpu_build. split.
  - intros H. binds H. apply validated_ok in H as [-> _].
    match goal with G : get_child_elem _ _ = Ok ?c, E : endian_parse_node ?c = Ok ?x |- _ =>
      assert (U : bind (get_child_elem "endian" n) endian_parse_node = Ok x) by (apply bind_ok'; eauto) end.
    apply the_endian_iff in U.
    repeat match goal with H : required _ _ = Ok _ |- _ => apply required_ok in H; cbn in H; injection H as -> end. fwd.
    now constructor.
  - intros [T N R U M F Fd Ds Ic Dc It Dt Vt Np Sy Dn Sa]. apply the_endian_iff in U. apply bind_ok' in U as (e & G & U).
    bwd. step; [exact G|]. step; [exact U|]. bwd. cbn. now destruct c.
Qed.
Lemma default_forward {A} l (R : option A -> Prop) w dflt o x : R o -> required w (unless_strict l dflt o) = Ok x ->
  or_default l R dflt x.
Proof.
  intros H K. apply required_ok in K. unfold unless_strict in K. destruct o as [a|]; cbn in K.
  - left. congruence.
  - right. destruct l; cbn in K; try discriminate; conjs; auto; congruence.
Qed.
Lemma default_backward {A} l (R : option A -> Prop) w dflt x : or_default l R dflt x ->
  exists o, R o /\ required w (unless_strict l dflt o) = Ok x.
Proof.
  intros [H|(L & H & ->)]; [exists (Some x)|exists None]; (split; [exact H|]); apply required_ok; [reflexivity|].
  destruct l; cbn; congruence.
Qed.
Lemma location_eq : default_schema_location = "CMSIS-SVD_Schema_1_1.xsd"%string. Proof. reflexivity. Qed.
Lemma attr_default k n dflt x : opt_default dflt (attr k n) = x <-> attribute k n x \/ (no_attribute k n /\ x = dflt).
Proof.
  split.
  - destruct (attr k n) as [s|] eqn:E; cbn; intros <-; [left; now apply attr_some|right; split; [now apply attr_none|reflexivity]].
  - intros [H|[H ->]]; [apply (attr_iff k n (Some x)) in H|apply (attr_iff k n None) in H]; now rewrite H.
Qed.
Lemma location_iff n x :
  opt_default default_schema_location (if is_some (attr "xmlns:xs" n) then attr "xs:noNamespaceSchemaLocation" n else None) = x <->
  (~ no_attribute "xmlns:xs" n /\ attribute "xs:noNamespaceSchemaLocation" n x) \/
  ((no_attribute "xmlns:xs" n \/ no_attribute "xs:noNamespaceSchemaLocation" n) /\ x = "CMSIS-SVD_Schema_1_1.xsd"%string).
Proof.
  rewrite location_eq. destruct (attr "xmlns:xs" n) as [u|] eqn:E; cbn [is_some].
  - assert (N : ~ no_attribute "xmlns:xs" n) by (intros H; apply (attr_iff _ _ None) in H; congruence).
    rewrite attr_default. tauto.
  - apply attr_none in E. cbn. split; [intros <-; right; auto|]. intros [[H _]|[_ H]]; [contradiction|auto].
Qed.
Theorem device_iff m cfg n d : device_parse m cfg n = Ok d <-> device_read m (pc_level cfg) (pc_ignore_enums cfg) n d.
Proof.
  assert (C : forall o, optional (cpu_parse cfg) "cpu" n = Ok o <-> member cpu_read "cpu" n o)
    by (intros o; apply member_iff; intros; apply cpu_iff).
  assert (V : forall r, (exists c, get_child_elem "peripherals" n = Ok c /\ collect is_element (peripheral_parse m cfg) (children c) = Ok r) <->
     the (fun c => each an_element (array_read (pc_level cfg) "peripheral" p_name (peripheral_read m (pc_level cfg) (pc_ignore_enums cfg))) (children c))
       "peripherals" n r).
  { intros r. apply the_iff. intros c _. apply each_iff; intros; [apply element_iff|]. apply array_iff. intros. now apply peripheral_iff. }
  unfold device_parse, device_build. cbv zeta. split.
  - intros H. binds H. apply validated_ok in H as [-> H]. apply device_validate_ok in H.
    match goal with H : rp_parse _ _ = Ok _ |- _ => apply props_iff in H end.
    match goal with H : rp_build _ _ = Ok _ |- _ => apply rp_build_ok in H as [-> ?] end.
    match goal with H : optional (cpu_parse cfg) _ _ = Ok _ |- _ => apply C in H end.
    match goal with G : get_child_elem _ _ = Ok ?c, E : collect _ _ (children ?c) = Ok ?x |- _ =>
      assert (P := proj1 (V x) (ex_intro _ c (conj G E))) end.
    cbn [db_version db_description db_address_unit_bits db_width db_name db_peripherals] in *.
    repeat match goal with H : required _ (Some _) = Ok _ |- _ => apply required_ok in H; injection H as -> end. fwd.
    constructor; cbn; eauto using default_forward.
    + now apply attr_default.
    + now apply location_iff.
    + now apply attr_default.
  - intros [T Ve Vi Na Se Vr De Li Cp Hf Hp Un Wi Pr Ps Ns Lo Sv K].
    apply (default_backward _ _ "version") in Vr as (vo & Vr & Vr'). apply (default_backward _ _ "description") in De as (deo & De & De').
    apply (default_backward _ _ "addressUnitBits") in Un as (uo & Un & Un'). apply (default_backward _ _ "width") in Wi as (wo & Wi & Wi').
    apply V in Ps as (c & G & Ps).
    bwd. step; [apply C; eassumption|]. bwd. step; [apply props_iff; eassumption|]. step; [exact G|]. step; [exact Ps|]. bwd.
    cbn [db_version db_description db_address_unit_bits db_width db_name db_peripherals db_default_properties required ok_or bind].
    step; [exact Vr'|]. step; [exact De'|]. step; [exact Un'|]. step; [exact Wi'|].
    apply rp_bind. split; [now destruct Pr|]. apply validated_ok. rewrite <- device_validate_ok in K.
    apply attr_default in Ns. apply location_iff in Lo. apply attr_default in Sv.
    destruct d; cbn in *. unfold default_xmlns_xs, default_schema_version. rewrite Ns, Lo, Sv. auto.
Qed.
