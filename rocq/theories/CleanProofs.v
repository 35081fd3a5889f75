(** Proofs of the converse of C41: a description that comes back from XML as it was. *)
From Verif Require Import Base BaseFacts Num NumProofs EnumProofs Types Names Validate Builders Arrays Config Sort Xml Encode
  Parse SpecNum SpecArray ArrayProofs IndexProofs SpecText TrimProofs SpecXml XmlFacts BitProofs PropBits SpecValidate ValidateProofs
  SpecBuild BuilderProofs SpecParse ParseProofs TreeFacts SpecRound RoundProofs FitProofs.

(** ** The texts of what was read have no white space around them *)
Definition bare (s : string) : Prop := trimmed s s.
Definition bare_opt := opt_all bare.
Definition b_value (e : enumerated_value) : Prop := bare (ev_name e) /\ bare_opt (ev_description e).
Definition b_values (e : enumerated_values) : Prop := bare_opt (evs_name e) /\ Forall b_value (evs_values e).
Definition b_dai (d : dim_array_index) : Prop := bare_opt (dai_header_enum_name d) /\ Forall b_value (dai_values d).
Definition b_dim (d : dim_element) : Prop :=
  opt_all (fun is => bare (glue "," is)) (de_index d) /\ bare_opt (de_name d) /\ opt_all b_dai (de_array_index d).
Definition b_any {A} (P : A -> Prop) (x : maybe_array A) : Prop :=
  match x with Single a => P a | Array a d => P a /\ b_dim d end.
Definition b_field (f : field_info) : Prop :=
  bare (f_name f) /\ bare_opt (f_description f) /\ Forall b_values (f_enumerated_values f).
Definition b_register (r : register_info) : Prop :=
  bare (r_name r) /\ bare_opt (r_display_name r) /\ bare_opt (r_description r) /\ bare_opt (r_alternate_group r) /\
  bare_opt (r_alternate_register r) /\ opt_all (Forall (b_any b_field)) (r_fields r).
Definition b_cluster (c : cluster_info) : Prop :=
  bare (c_name c) /\ bare_opt (c_description c) /\ bare_opt (c_alternate_cluster c) /\ bare_opt (c_header_struct_name c).
Inductive b_rc : register_cluster -> Prop :=
  | br_register r : b_any b_register r -> b_rc (RCRegister r)
  | br_cluster c : b_any b_cluster c -> Forall b_rc (c_children (info c)) -> b_rc (RCCluster c).
Definition b_interrupt (i : interrupt) : Prop := bare (it_name i) /\ bare_opt (it_description i).
Definition b_peripheral (p : peripheral_info) : Prop :=
  bare (p_name p) /\ bare_opt (p_display_name p) /\ bare_opt (p_version p) /\ bare_opt (p_description p) /\
  bare_opt (p_alternate_peripheral p) /\ bare_opt (p_group_name p) /\ bare_opt (p_prepend_to_name p) /\
  bare_opt (p_append_to_name p) /\ bare_opt (p_header_struct_name p) /\ Forall b_interrupt (p_interrupt p) /\
  opt_all (Forall b_rc) (p_registers p).
Definition b_cpu (c : cpu) : Prop := bare (cpu_name c) /\ bare (cpu_revision c).
Definition b_device (d : device) : Prop :=
  bare_opt (d_vendor d) /\ bare_opt (d_vendor_id d) /\ bare (d_name d) /\ bare_opt (d_series d) /\ bare (d_version d) /\
  bare (d_description d) /\ bare_opt (d_license_text d) /\ opt_all b_cpu (d_cpu d) /\ bare_opt (d_header_system_filename d) /\
  bare_opt (d_header_definitions_prefix d) /\ Forall (b_any b_peripheral) (d_peripherals d).

Lemma bare_text n s : get_text n = Ok s -> bare s.
Proof. intros G. apply get_text_content in G as (t & _ & R). now apply trimmed_again in R. Qed.
Lemma bt_opt k n o : get_child_text_opt k n = Ok o -> bare_opt o.
Proof.
  unfold get_child_text_opt. destruct (get_child k n) as [c|]; [|intros H; injection H as <-; easy].
  destruct (get_text c) as [s|[]|] eqn:G; try discriminate; intros H; injection H as <-; cbn; auto. now apply bare_text in G.
Qed.
Lemma bt_req k n s : get_child_text k n = Ok s -> bare s.
Proof.
  unfold get_child_text. intros H. apply bind_ok in H as (o & E & H). destruct o; [|discriminate]. injection H as ->. now apply (bt_opt _ _ _ E).
Qed.
Lemma bo_opt {A} (f : xml -> res A) (P : A -> Prop) k n o : optional f k n = Ok o -> (forall c a, f c = Ok a -> P a) -> opt_all P o.
Proof.
  unfold optional. intros H F. apply mapM_opt_ok in H. destruct (get_child k n) as [c|], o; try easy. cbn. now apply (F c).
Qed.
Lemma bc_all {A} p (f : xml -> res A) (P : A -> Prop) l r : collect p f l = Ok r -> (forall c a, In c l -> f c = Ok a -> P a) -> Forall P r.
Proof.
  intros H F. apply Forall_forall. intros a I. destruct (collect_in _ _ _ _ _ H I) as (c & Ic & _ & E). now apply (F c).
Qed.
Lemma tidy_bare o : bare_opt o -> bare_opt (tidy_text o).
Proof. destruct o as [[|]|]; auto. now intros _. Qed.
Ltac bares := repeat first [ eassumption | apply tidy_bare | (eapply bt_opt; eassumption) | (eapply bt_req; eassumption) ].

Section Read.
  Variables (m : mode) (cfg : pconfig).
  Lemma b_value_read n e : ev_item cfg n = Ok e -> b_value e.
  Proof.
    intros H. unfold ev_item in H. destruct (has_tag _ n); [|discriminate].
    unfold ev_parse in H. binds H. unfold ev_build in H. cbn [required ok_or bind evb_name] in H. apply validated_ok in H as [-> H].
    unfold b_value. cbn [ev_name ev_description evb_name evb_description]. rewrite str_tidy in *. conjs; bares.
  Qed.
  Lemma b_values_read n e : evs_parse cfg n = Ok e -> b_values e.
  Proof.
    intros H. unfold evs_parse in H. binds H. unfold evs_build in H. apply validated_ok in H as [-> H]. unfold b_values.
    cbn [evs_name evs_values evsb_name evsb_values opt_default]. rewrite str_tidy in *. conjs; bares.
    eapply bc_all; eauto. intros; eapply b_value_read; eauto.
  Qed.
  Lemma b_dai_read n d : dai_parse cfg n = Ok d -> b_dai d.
  Proof.
    intros H. unfold dai_parse in H. binds H. injection H as <-. split; cbn [dai_header_enum_name dai_values]; bares.
    eapply bc_all; eauto. intros; eapply b_value_read; eauto.
  Qed.
  Lemma b_index_read t is : parse_indexes t = Some is -> bare t -> bare (glue "," is).
  Proof.
    intros H T. destruct (String.string_dec t "") as [->|N].
    - vm_compute in H. injection H as <-. exact T.
    - apply index_read in H as (_ & _ & _ & F); [apply F|]. split; auto.
  Qed.
  Lemma b_dim_read n d : de_parse cfg n = Ok d -> b_dim d.
  Proof.
    intros H. unfold de_parse in H. binds H. unfold de_build in H. cbn [required ok_or bind deb_dim deb_increment] in H.
    apply validated_ok in H as [-> H]. unfold b_dim.
    cbn [de_dim de_increment de_index de_name de_array_index deb_index deb_name deb_array_index] in *. rewrite str_tidy, vec_tidy in *.
    conjs; bares; [|eapply bo_opt; [eassumption|intros; eapply b_dai_read; eauto]].
    match goal with E : optional dim_index_parse _ _ = Ok ?o |- _ => destruct o as [is|]; [|exact I]; rename E into Ei end.
    unfold optional in Ei. apply mapM_opt_ok in Ei. destruct (get_child "dimIndex" n) as [c|] eqn:Ec; [|contradiction].
    unfold dim_index_parse in Ei. apply bind_ok in Ei as (t & Et & Ei). destruct (parse_indexes t) as [is'|] eqn:Ep; [|discriminate].
    injection Ei as ->. destruct is as [|i0 is]; cbn [tidy_list opt_all]; [exact I|]. apply b_index_read in Ep; auto. now apply bare_text in Et.
  Qed.
  Lemma b_any_read {A} t (name : A -> string) (f : xml -> res A) (P : A -> Prop) n x : parse_array cfg t name f n = Ok x ->
    (forall i, f n = Ok i -> P i) -> b_any P x.
  Proof.
    intros H F. pose proof (parse_array_ok _ _ _ _ _ _ H) as (_ & E & _).
    destruct x as [i|i d]; cbn [b_any info] in *; [now apply F|]. split; [now apply F|].
    unfold parse_array in H. apply bind_ok in H as (u & _ & H). apply bind_ok in H as (i' & _ & H).
    destruct (is_some _); [|discriminate]. apply bind_ok in H as (d' & D & H). binds H. injection H as _ <-. now apply (b_dim_read n).
  Qed.
  Lemma b_field_read n f : field_info_parse m cfg n = Ok f -> b_field f.
  Proof.
    intros H. unfold field_info_parse in H. binds H. unfold field_build in H. cbn [required ok_or bind fb_name fb_bit_range] in H.
    apply validated_ok in H as [-> H]. unfold b_field. cbn [f_name f_description f_enumerated_values
      fb_description fb_enumerated_values opt_default] in *. rewrite str_tidy in *. conjs; bares.
    destruct (pc_ignore_enums cfg); cbn [negb] in *; [match goal with C : Ok [] = Ok _ |- _ => injection C as <- end; constructor|].
    eapply bc_all; [eassumption|]. intros; eapply b_values_read; eauto.
  Qed.
  Lemma b_register_read n r : register_info_parse m cfg n = Ok r -> b_register r.
  Proof.
    intros H. unfold register_info_parse in H. binds H. unfold register_build in H.
    cbn [required ok_or bind rb_name rb_address_offset rb_properties] in H. apply bind_ok in H as (q & _ & H).
    apply validated_ok in H as [E H].
    match goal with E : mapM_opt _ _ = Ok ?o |- _ => rename E into Ef, o into fs end.
    assert (Fs : opt_all (Forall (b_any b_field)) fs).
    { apply mapM_opt_ok in Ef. destruct fs as [fs|]; [|exact I]. destruct (get_child "fields" n) as [c|]; [|contradiction]. cbn.
      eapply bc_all; [exact Ef|]. intros c' x' _ K. unfold field_parse in K. eapply b_any_read; [exact K|]. apply b_field_read. }
    subst r. unfold b_register. cbn [r_name r_display_name r_description r_alternate_group r_alternate_register r_fields
      rb_display_name rb_description rb_alternate_group rb_alternate_register rb_fields] in *. conjs; bares.
  Qed.
  Lemma b_cluster_read n c kids : cluster_info_parse cfg kids n = Ok c -> b_cluster c.
  Proof.
    intros H. unfold cluster_info_parse in H. binds H. unfold cluster_build in H.
    cbn [required ok_or bind cb_name cb_address_offset cb_default_properties cb_children] in H. apply bind_ok in H as (q & _ & H).
    apply validated_ok in H as [E H]. subst c. unfold b_cluster. cbn [c_name c_description c_alternate_cluster c_header_struct_name
      cb_description cb_alternate_cluster cb_header_struct_name] in *. rewrite !str_tidy in *. conjs; bares.
  Qed.
  Lemma b_rc_read n : forall rc, rc_parse m cfg n = Ok rc -> b_rc rc.
  Proof.
    induction n as [t a k IH|s|] using xml_tree_ind; intros rc H; [|discriminate..]. cbn [rc_parse tag] in H.
    destruct (seqb t "register").
    - apply rmap_ok in H as (r & H & ->). unfold register_parse in H. constructor. eapply b_any_read; [exact H|]. apply b_register_read.
    - destruct (seqb t "cluster"); [|discriminate]. apply rmap_ok in H as (c & H & ->). constructor.
      + eapply b_any_read; [exact H|]. intros i Ei. eapply b_cluster_read; eauto.
      + apply parse_array_ok in H as (_ & H & _). apply cluster_info_parse_ok in H as (K & _). apply Forall_forall. intros rc I.
        destruct (collect_in _ _ _ _ _ K I) as (e & Ie & _ & Ee). rewrite Forall_forall in IH. now apply (IH e Ie).
  Qed.
  Lemma b_interrupt_read n i : it_parse cfg n = Ok i -> b_interrupt i.
  Proof. intros H. unfold it_parse in H. binds H. unfold it_build in H. cbn in H. injection H as <-. unfold b_interrupt. cbn. conjs; bares. Qed.
  Lemma b_peripheral_read n p : peripheral_info_parse m cfg n = Ok p -> b_peripheral p.
  Proof.
    intros H. unfold peripheral_info_parse in H. binds H. unfold peripheral_build in H.
    cbn [required ok_or bind pb_name pb_base_address pb_default_properties] in H. apply bind_ok in H as (q & _ & H).
    apply validated_ok in H as [E H].
    match goal with E : mapM_opt _ _ = Ok ?o |- _ => rename E into Ef, o into rs end.
    match goal with E : collect _ (it_parse _) _ = Ok ?o |- _ => rename E into Eit, o into its end.
    assert (Fs : opt_all (Forall b_rc) rs).
    { apply mapM_opt_ok in Ef. destruct rs as [rs|]; [|exact I]. destruct (get_child "registers" n) as [c|]; [|contradiction]. cbn.
      eapply bc_all; [exact Ef|]. intros c' x' _ K. now apply (b_rc_read c'). }
    subst p. unfold b_peripheral. cbn [p_name p_display_name p_version p_description p_alternate_peripheral p_group_name p_prepend_to_name
      p_append_to_name p_header_struct_name p_interrupt p_registers
      pb_display_name pb_version pb_description pb_alternate_peripheral pb_group_name pb_prepend_to_name
      pb_append_to_name pb_header_struct_name pb_interrupt pb_registers opt_default] in *. rewrite !str_tidy in *. conjs; bares.
    eapply bc_all; [exact Eit|]. intros; eapply b_interrupt_read; eauto.
  Qed.
  Lemma b_cpu_read n c : cpu_parse cfg n = Ok c -> b_cpu c.
  Proof.
    intros H. unfold cpu_parse in H. binds H. unfold cpu_build in H. cbn in H. injection H as <-. unfold b_cpu.
    cbn [cpu_name cpu_revision]. conjs; bares.
  Qed.
  Lemma b_device_read n d : device_parse m cfg n = Ok d -> b_device d.
  Proof.
    intros H. unfold device_parse in H. binds H. unfold device_build in H.
    cbn [required ok_or bind db_name] in H.
    apply bind_ok in H as (ver & Ev & H). apply bind_ok in H as (des & Ed & H). apply bind_ok in H as (aub & Eu & H). apply bind_ok in H as (wid & Ew & H).
    cbn [required ok_or bind db_default_properties db_peripherals db_version db_description db_address_unit_bits db_width] in *.
    apply bind_ok in H as (q & _ & H). apply validated_ok in H as [E H].
    match goal with E : collect is_element _ _ = Ok ?o |- _ => rename E into Ep, o into ps end.
    assert (Fp : Forall (b_any b_peripheral) ps).
    { eapply bc_all; [exact Ep|]. intros c' x' _ K. unfold peripheral_parse in K. eapply b_any_read; [exact K|]. apply b_peripheral_read. }
    subst d. unfold b_device. cbn [d_vendor d_vendor_id d_name d_series d_version d_description d_license_text d_cpu d_header_system_filename
      d_header_definitions_prefix d_peripherals
      db_vendor db_vendor_id db_series db_license_text db_cpu db_header_system_filename db_header_definitions_prefix] in *.
    conjs; bares.
    - match type of Ev with required _ (unless_strict _ _ ?o) = _ => assert (T : bare_opt o) by bares; destruct o as [v|] end.
      + injection Ev as <-. exact T.
      + unfold unless_strict in Ev. cbn in Ev. destruct (is_strict _); [discriminate|]. injection Ev as <-. now apply visible_fits.
    - match type of Ed with required _ (unless_strict _ _ ?o) = _ => assert (T : bare_opt o) by bares; destruct o as [v|] end.
      + injection Ed as <-. exact T.
      + unfold unless_strict in Ed. cbn in Ed. destruct (is_strict _); [discriminate|]. injection Ed as <-. apply trim_spec. reflexivity.
    - eapply bo_opt; [eassumption|]. intros; eapply b_cpu_read; eauto.
  Qed.
End Read.

(** ** What is written has no blank texts *)
Lemma bare_spaces s : bare s -> spaces s -> s = ""%string.
Proof.
  intros (a & b & _ & _ & _ & F & _) S. destruct S as [|c s W S]; [reflexivity|]. now destruct (F c s W).
Qed.
Lemma nb_text s : no_blanks (Text s).
Proof.
  intros e I. inversion I; subst. split; [|discriminate]. intros _ t (? & ? & ? & E & _). discriminate.
Qed.
Lemma nb_elem t a l : ~ In t text_tags -> (t = "fields"%string -> exists c, In c l /\ is_element c = true) -> Forall no_blanks l -> no_blanks (Elem t a l).
Proof.
  intros T F L e I. inversion I as [|t' a' l' c e' Ic Ie]; subst.
  - split; [intros X; contradiction|exact F].
  - rewrite Forall_forall in L. exact (L c Ic e Ie).
Qed.
Lemma nb_new k s : k <> "fields"%string -> bare s \/ ~ In k text_tags -> no_blanks (new_node k s).
Proof.
  intros K B. destruct B as [B|B]; [|apply nb_elem; [exact B|contradiction|constructor; [apply nb_text|constructor]]].
  intros e I. inversion I as [|t' a' l' c e' Ic Ie]; subst.
  - split; [|contradiction]. intros _ s' (t & a & rest & E & N) S. injection E as <- <- <- <-. apply N. now apply bare_spaces.
  - destruct Ic as [<-|[]]. exact (nb_text _ e Ie).
Qed.
Lemma nb_opt {A} (f : A -> xml) o : (forall a, o = Some a -> no_blanks (f a)) -> Forall no_blanks (opt_node f o).
Proof. destruct o; cbn; intros H; [constructor; auto|constructor]. Qed.
Lemma nb_opt_text f k o : k <> "fields"%string -> bare_opt o -> (forall s, f s = new_node k s) -> Forall no_blanks (opt_node f o).
Proof. intros K B E. apply nb_opt. intros a ->. rewrite E. apply nb_new; auto. Qed.
Lemma nb_map {A} (f : A -> xml) l : Forall (fun a => no_blanks (f a)) l -> Forall no_blanks (map f l).
Proof. intros H. now apply Forall_map. Qed.
Lemma nb_mapM {A} (f : A -> res xml) (P : A -> Prop) l : Forall P l -> (forall a n, P a -> f a = Ok n -> no_blanks n) ->
  forall r, mapM f l = Ok r -> Forall no_blanks r.
Proof.
  intros H F. induction H as [|a l Pa H IH]; intros r E; cbn in E.
  - injection E as <-. constructor.
  - apply bind_ok in E as (b & E1 & E). apply bind_ok in E as (r' & E2 & E). injection E as <-. constructor; eauto.
Qed.
Lemma nb_children t a l : no_blanks (Elem t a l) -> Forall no_blanks l.
Proof. intros H. apply Forall_forall. intros c I e Ie. apply H. now apply in_below with c. Qed.
Lemma merge_element t a l x y c : Ok (merge (merge (Elem t a l) x) y) = Ok c -> is_element c = true.
Proof. intros E. injection E as <-. now destruct x, y. Qed.
Ltac other := let X := fresh in intros X; vm_compute in X; repeat (destruct X as [X|X]; [discriminate X|]); exact X.
Ltac nbs :=
  repeat first [ apply nb_text | apply Forall_nil | apply Forall_cons | (apply Forall_app; split)
    | (apply nb_elem; [other|discriminate|])
    | (apply nb_new; [discriminate|first [left; assumption|right; other]])
    | (apply nb_opt; intros; apply nb_new; [discriminate|first [left; assumption|right; other]])
    | (eapply nb_opt_text; [|eassumption|intros; reflexivity]; discriminate)
    | assumption ].
Section Write.
  Variables (m : mode) (conv : id_format -> string -> string) (cfg : config).
  Hypotheses (K : no_cases cfg) (P : in_place cfg).
  Ltac plain := unfold cc, change_case; destruct K as (K1 & K2 & K3 & K4 & K5 & K6 & K7 & K8); rewrite ?K1, ?K2, ?K3, ?K4, ?K5, ?K6, ?K7, ?K8;
    cbn [change_case opt_default].
  Lemma nb_props p : Forall no_blanks (rp_encode cfg p).
  Proof. unfold rp_encode. nbs. Qed.
  Lemma nb_value e : b_value e -> no_blanks (ev_encode conv cfg e).
  Proof. intros (A & B). unfold ev_encode. plain. nbs. Qed.
  Lemma nb_values e : b_values e -> no_blanks (evs_encode conv cfg e).
  Proof.
    intros (A & B). unfold evs_encode. plain. nbs. apply nb_map. eapply Forall_impl; [|exact B]. exact nb_value.
  Qed.
  Lemma nb_dai d : b_dai d -> no_blanks (dai_encode conv cfg d).
  Proof.
    intros (A & B). unfold dai_encode. plain. nbs. apply nb_map. eapply Forall_impl; [|exact B]. exact nb_value.
  Qed.
  Lemma nb_dim d n : b_dim d -> de_encode m conv cfg d = Ok n -> no_blanks n.
  Proof.
    intros (A & B & C) E. apply de_encode_ok in E as (ns & I & ->).
    unfold flat, de_pieces. cbn [map snd List.concat]. nbs.
    - destruct I as [(_ & ->)|(is & t & D & -> & X)]; [constructor|]. rewrite D in A. cbn in A. constructor; [|constructor]. apply nb_new; [discriminate|left].
      destruct X as [(a & b & _ & ->)| ->].
      + apply visible_fits; [apply range_visible|]. destruct (to_string a) eqn:Z; [now apply fmt_nonempty in Z|discriminate].
      + now rewrite join_glue.
    - apply nb_opt. intros a E. rewrite E in C. now apply nb_dai.
  Qed.
  Lemma nb_merge a b : no_blanks a -> no_blanks b -> ~ In (tag a) text_tags -> tag a <> "fields"%string -> no_blanks (merge a b).
  Proof.
    intros A B T F. destruct a as [t x l| |], b as [t' x' l'| |]; try exact A. cbn [merge]. apply nb_elem; [exact T|contradiction|].
    apply Forall_app. split; eapply nb_children; eauto.
  Qed.
  Lemma nb_any {A} t (f : A -> res xml) (Q : A -> Prop) x n : ~ In t text_tags -> t <> "fields"%string -> b_any Q x ->
    (forall i n, Q i -> f i = Ok n -> no_blanks n) -> ma_encode m conv cfg t f x = Ok n -> no_blanks n.
  Proof.
    intros T F B H E. destruct x as [i|i d]; cbn [ma_encode b_any] in *; [eauto|]. apply bind_ok in E as (de & D & E). apply bind_ok in E as (e & I & E). injection E as <-.
    destruct B as [B C]. pose proof (nb_dim _ _ C D). pose proof (H _ _ B I).
    assert (M : no_blanks (merge (Elem t [] []) de)) by (apply nb_merge; auto; apply nb_elem; [exact T|contradiction|constructor]).
    apply nb_merge; auto; destruct de; auto.
  Qed.
  Lemma nb_constraint w : no_blanks (wc_encode w).
  Proof. unfold wc_encode. destruct w; nbs. Qed.
  Lemma nb_bits b l : bit_range_encode m cfg b = Ok l -> Forall no_blanks l.
  Proof.
    unfold bit_range_encode. destruct (opt_default _ _); intros H; binds H; injection H as <-; nbs.
  Qed.
  Lemma nb_field f n : b_field f -> field_info_encode m conv cfg f = Ok n -> no_blanks n.
  Proof.
    intros (A & B & C) E. unfold field_info_encode in E. apply bind_ok in E as (bits & Eb & E). injection E as <-. apply nb_bits in Eb. plain. nbs.
    - apply nb_opt. intros; apply nb_constraint.
    - apply nb_map. eapply Forall_impl; [|exact C]. exact nb_values.
  Qed.
  Lemma nb_register r n : b_register r -> register_info_encode m conv cfg r = Ok n -> no_blanks n.
  Proof.
    intros (A & B & C & D & F & G) E. unfold register_info_encode in E. apply bind_ok in E as (fields & Ef & E). injection E as <-.
    assert (L : Forall no_blanks fields).
    { destruct (r_fields r) as [v|]; [|injection Ef as <-; constructor]. destruct P as (_ & _ & P3 & _). rewrite P3 in Ef.
      change (sort_fields m (Unchanged None) v) with (@Ok (list field) v) in Ef. cbn [bind] in Ef. apply bind_ok in Ef as (ch & Ec & Ef). injection Ef as <-.
      assert (N : Forall no_blanks ch).
      { eapply nb_mapM; [exact G| |exact Ec]. intros x y Bx Ex. unfold field_encode in Ex. eapply nb_any; [| |exact Bx|apply nb_field|exact Ex];
          [other|discriminate]. }
      destruct ch as [|c ch]; cbn [is_nil]; constructor; [|constructor]. apply nb_elem; [other| |exact N].
      intros _. exists c. split; [now left|]. destruct v as [|x v]; cbn in Ec; [discriminate|]. apply bind_ok in Ec as (c' & Ec & E'). apply bind_ok in E' as (ch' & _ & E').
      injection E' as -> _. clear - Ec. unfold field_encode, ma_encode in Ec. destruct x; binds Ec.
      - unfold field_info_encode in Ec. binds Ec. now injection Ec as <-.
      - now apply merge_element in Ec. }
    plain. nbs; try apply nb_props. apply nb_opt. intros; apply nb_constraint.
  Qed.
  Lemma nb_cluster c kids n : b_cluster c -> (forall ch, kids = Ok ch -> Forall no_blanks ch) -> cluster_info_encode conv cfg kids c = Ok n -> no_blanks n.
  Proof.
    intros (A & B & C & D) L E. unfold cluster_info_encode in E. apply bind_ok in E as (ch & Ec & E). injection E as <-. apply L in Ec. plain. nbs; try apply nb_props.
  Qed.
  Lemma nb_rc rc : b_rc rc -> forall n, rc_encode m conv cfg rc = Ok n -> no_blanks n.
  Proof.
    induction rc as [r|c IH] using rc_tree_ind; intros B n E; inversion B as [r' Br|c' Bc Bk]; subst; cbn [rc_encode] in E.
    - unfold register_encode in E. eapply nb_any; [| |exact Br|apply nb_register|exact E]; [other|discriminate].
    - eapply nb_any; [| |exact Bc| |exact E]; [other|discriminate|].
      intros i n' Bi Ei. eapply nb_cluster; [exact Bi| |exact Ei]. intros ch Ec. eapply nb_mapM; [| |exact Ec].
      + apply Forall_forall. intros x Ix. rewrite Forall_forall in IH, Bk. exact (conj (IH x Ix) (Bk x Ix)).
      + cbn. intros a y (H1 & H2) Ey. now apply H1.
  Qed.
  Lemma nb_interrupt i : b_interrupt i -> no_blanks (it_encode conv cfg i).
  Proof. intros (A & B). unfold it_encode. plain. nbs. Qed.
  Lemma nb_peripheral p n : b_peripheral p -> peripheral_info_encode m conv cfg p = Ok n -> no_blanks n.
  Proof.
    intros (A & B & C & D & F & G & H & I & J & L & M) E. unfold peripheral_info_encode in E. apply bind_ok in E as (rs & Er & E). injection E as <-.
    assert (R : Forall no_blanks rs).
    { destruct (p_registers p) as [v|]; [|injection Er as <-; constructor]. destruct P as (_ & P2 & _ & _). rewrite P2 in Er.
      change (sort_registers m (RcUnchanged (Unchanged None)) v) with (@Ok (list register_cluster) v) in Er. cbn [bind] in Er. apply bind_ok in Er as (ch & Ec & Er). injection Er as <-.
      nbs. eapply nb_mapM; [exact M| |exact Ec]. intros a y Ba Ey. now apply (nb_rc a). }
    plain. nbs; try apply nb_props.
    - apply nb_map. apply Forall_forall. intros a _. unfold ab_encode. nbs.
    - apply nb_map. eapply Forall_impl; [|exact L]. exact nb_interrupt.
  Qed.
  Lemma nb_cpu c : b_cpu c -> no_blanks (cpu_encode c).
  Proof. intros (A & B). unfold cpu_encode. nbs. Qed.
  Lemma nb_device d n : b_device d -> device_encode m conv cfg d = Ok n -> no_blanks n.
  Proof.
    intros (A & B & C & D & F & G & H & I & J & L & M) E. unfold device_encode in E. destruct P as (P1 & _). rewrite P1 in E.
    change (sort_peripherals m (Unchanged None) (d_peripherals d)) with (@Ok (list peripheral) (d_peripherals d)) in E. cbn [bind] in E.
    apply bind_ok in E as (ps & Ep & E). injection E as <-.
    assert (R : Forall no_blanks ps).
    { eapply nb_mapM; [exact M| |exact Ep]. intros x y Bx Ex. unfold peripheral_encode in Ex. eapply nb_any; [| |exact Bx|apply nb_peripheral|exact Ex];
          [other|discriminate]. }
    nbs; try apply nb_props. apply nb_opt. intros a E. rewrite E in I. now apply nb_cpu.
  Qed.
End Write.
