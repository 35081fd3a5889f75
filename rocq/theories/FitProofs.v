(** What is read from a document without blank texts can be written again. *)
From Verif Require Import Base BaseFacts Num NumProofs EnumProofs Types Names Validate Builders Arrays Config Sort Xml Encode
  Parse SpecNum SpecArray ArrayProofs IndexProofs SpecText TrimProofs SpecXml XmlFacts BitProofs PropBits SpecValidate ValidateProofs
  SpecBuild BuilderProofs SpecParse ParseProofs TreeFacts SpecRound.

(** ** Texts *)
Lemma trimmed_again s t : trimmed s t -> trimmed t t.
Proof.
  intros (a & b & _ & _ & _ & H1 & H2). exists ""%string, ""%string. rewrite sapp_nil. conjs; auto; constructor.
Qed.
Lemma trimmed_blank s : trimmed s "" -> spaces s.
Proof. intros (a & b & -> & A & B & _). now apply spaces_app. Qed.
Lemma visible_fits s : sforall visible s = true -> s <> ""%string -> text_fits s.
Proof. intros V N. split; [exact N|]. apply trim_spec. now apply trim_visible. Qed.
Lemma glue_visible c l : visible c = true -> Forall (fun s => sforall visible s = true) l -> sforall visible (glue c l) = true.
Proof.
  intros D. induction l as [|p [|q l] IH]; intros F; [reflexivity|now inversion F|]. inversion F; subst.
  change (glue c (p :: q :: l)) with (p ++ String c (glue c (q :: l)))%string. rewrite sforall_app. cbn [sforall].
  rewrite D, IH by assumption. now rewrite andb_true_r.
Qed.
Definition plain_char (c : ascii) : bool := ((48 <=? byte c) && (byte c <=? 57)) || ((65 <=? byte c) && (byte c <=? 90)) || ((97 <=? byte c) && (byte c <=? 122)).
Lemma sforall_in f s c : sforall f s = true -> In c (list_ascii_of_string s) -> f c = true.
Proof. induction s as [|x s IH]; cbn; [easy|]. rewrite andb_true_iff. intros [A B] [->|I]; auto. Qed.
Lemma plain_pieces l : l <> [] -> Forall (fun s => sforall plain_char s = true /\ s <> ""%string) l ->
  Forall (free_of ",") l /\ Forall (free_of "-") l /\ text_fits (glue "," l).
Proof.
  intros N F. conjs.
  - eapply Forall_impl; [|exact F]. intros s [S _] I. apply (sforall_in _ _ _ S) in I. discriminate.
  - eapply Forall_impl; [|exact F]. intros s [S _] I. apply (sforall_in _ _ _ S) in I. discriminate.
  - apply visible_fits.
    + apply glue_visible; [reflexivity|]. eapply Forall_impl; [|exact F]. intros s [S _]. eapply sforall_impl; [|exact S].
      unfold plain_char, visible. intros c. lia.
    + destruct l as [|p [|q l]]; [congruence|now inversion F|]. cbn. destruct p; discriminate.
Qed.

Lemma list_ascii_app a b : list_ascii_of_string (a ++ b) = (list_ascii_of_string a ++ list_ascii_of_string b)%list.
Proof. induction a; cbn; f_equal; auto. Qed.

(** ** Accessors *)
Lemma tag_of k n : has_tag k n = true -> tag n = k.
Proof. destruct n; cbn; try discriminate. now intros E%seqb_eq. Qed.
Lemma child_inside k n c : get_child k n = Some c -> In c (children n) /\ tag c = k.
Proof. unfold get_child. intros H. apply find_first_some in H as (u & v & -> & T & _). split; [apply in_elt|now apply tag_of]. Qed.
Lemma below_clean n c : no_blanks n -> In c (children n) -> no_blanks c.
Proof. destruct n as [t a l| |]; cbn; try easy. intros H I e E. apply H. now apply in_below with c. Qed.
Lemma child_clean k n c : no_blanks n -> get_child k n = Some c -> no_blanks c.
Proof. intros H G. apply child_inside in G as [G _]. now apply below_clean with n. Qed.
Lemma content_fits n s : no_blanks n -> In (tag n) text_tags -> get_text n = Ok s -> text_fits s.
Proof.
  intros H I G. apply get_text_content in G as (t & T & R). destruct (H n (in_self n)) as [B _]. specialize (B I t T).
  split; [|now apply trimmed_again in R]. intros ->. apply B. now apply trimmed_blank.
Qed.
Lemma t_opt k n o : get_child_text_opt k n = Ok o -> no_blanks n -> In k text_tags -> text_opt o.
Proof.
  unfold get_child_text_opt. destruct (get_child k n) as [c|] eqn:E; [|intros H; injection H as <-; easy]. intros H C I.
  pose proof (child_inside _ _ _ E) as [_ T]. pose proof (child_clean _ _ _ C E) as Cc.
  destruct (get_text c) as [s|[]|] eqn:G; try discriminate; injection H as <-; cbn; auto.
  eapply content_fits; eauto. now rewrite T.
Qed.
Lemma t_req k n s : get_child_text k n = Ok s -> no_blanks n -> In k text_tags -> text_fits s.
Proof.
  unfold get_child_text. intros H C I. apply bind_ok in H as (o & E & H). destruct o; [|discriminate]. injection H as ->.
  now apply (t_opt _ _ _ E).
Qed.
Lemma num_below b n v : 0 < b -> num_parse b n = Ok v -> v < b.
Proof. intros B H. apply num_parse_number in H as (s & _ & _ & H); auto. Qed.
Lemma n_opt b k n o : optional (num_parse b) k n = Ok o -> 0 < b -> below b o.
Proof.
  unfold optional. intros H B. apply mapM_opt_ok in H. destruct (get_child k n), o; try easy. now apply num_below in H.
Qed.
Lemma n_u32 k n v : get_child_u32 k n = Ok v -> v < 2 ^ 32.
Proof. unfold get_child_u32. intros H. apply bind_ok in H as (c & _ & H). now apply num_below in H. Qed.
Lemma n_u64 k n v : get_child_u64 k n = Ok v -> v < 2 ^ 64.
Proof. unfold get_child_u64. intros H. apply bind_ok in H as (c & _ & H). now apply num_below in H. Qed.
Lemma o_opt {A} (f : xml -> res A) (P : A -> Prop) k n o : optional f k n = Ok o -> no_blanks n ->
  (forall c a, no_blanks c -> f c = Ok a -> P a) -> opt_all P o.
Proof.
  unfold optional. intros H C F. apply mapM_opt_ok in H. destruct (get_child k n) as [c|] eqn:E, o; try easy. cbn.
  apply (F c); auto. now apply child_clean with k n.
Qed.
Lemma c_all {A} p (f : xml -> res A) (P : A -> Prop) n r : collect p f (children n) = Ok r -> no_blanks n ->
  (forall c a, In c (children n) -> no_blanks c -> f c = Ok a -> P a) -> Forall P r.
Proof.
  intros H C F. apply Forall_forall. intros a I. destruct (collect_in _ _ _ _ _ H I) as (c & Ic & _ & E).
  apply (F c); auto. now apply below_clean with n.
Qed.
Lemma tidy_fits o : text_opt o -> text_opt (tidy_text o).
Proof. destruct o as [[|]|]; auto. now intros _. Qed.

Ltac reads := repeat first
  [ eassumption | apply tidy_fits
  | (eapply t_opt; [eassumption|assumption|cbn; tauto])
  | (eapply t_req; [eassumption|assumption|cbn; tauto])
  | (eapply n_opt; [eassumption|reflexivity]) | (eapply n_u32; eassumption) | (eapply n_u64; eassumption) ].

Section Fit.
  Variables (m : mode) (cfg : pconfig).
  Let l := pc_level cfg.

  Lemma props_read n p : rp_parse cfg n = Ok p -> props_fit l p.
  Proof.
    intros H. pose proof (rp_parse_ok _ _ _ H) as V. unfold rp_parse in H. binds H. apply rp_build_ok in H as [-> H].
    unfold props_fit. cbn [rp_size rp_reset_value rp_reset_mask]. conjs; reads.
  Qed.
  Lemma wc_read n w : wc_parse n = Ok w -> constraint_fits w.
  Proof.
    unfold wc_parse. destruct (filter is_element (children n)) as [|c [|]]; try discriminate.
    destruct (seqb _ _); [intros H; apply rmap_ok in H as (? & _ & ->); exact I|].
    destruct (seqb _ _); [intros H; apply rmap_ok in H as (? & _ & ->); exact I|].
    destruct (seqb _ _); [|discriminate]. intros H. apply bind_ok in H as (e & _ & H). unfold wc_range_parse in H. binds H. injection H as <-.
    cbn. split; reads.
  Qed.
  Lemma value_read n e : no_blanks n -> ev_item cfg n = Ok e -> value_fits l e.
  Proof.
    intros C H. pose proof (ev_item_ok _ _ _ H) as V. unfold ev_item in H. destruct (has_tag _ n); [|discriminate].
    unfold ev_parse in H. binds H. unfold ev_build in H. cbn [required ok_or bind evb_name] in H. apply validated_ok in H as [-> H].
    unfold value_fits. cbn [ev_name ev_description ev_value evb_name evb_description evb_value]. rewrite str_tidy in *. conjs; reads.
  Qed.
  Lemma values_read n e : no_blanks n -> evs_parse cfg n = Ok e -> values_fit l e.
  Proof.
    intros C H. pose proof (evs_parse_ok _ _ _ H _ (iv_self e)) as V. cbn [element_ok] in V. unfold evs_parse in H. binds H.
    unfold evs_build in H. apply validated_ok in H as [-> H]. unfold values_fit.
    cbn [evs_name evs_values evsb_name evsb_values opt_default]. rewrite str_tidy in *. conjs; reads.
    eapply c_all; eauto. intros; eapply value_read; eauto.
  Qed.
  Lemma dai_read n d : no_blanks n -> dai_parse cfg n = Ok d -> dai_fits l d.
  Proof.
    intros C H. unfold dai_parse in H. binds H. injection H as <-. split; cbn [dai_header_enum_name dai_values]; reads.
    eapply c_all; eauto. intros; eapply value_read; eauto.
  Qed.
  Lemma index_read t is : parse_indexes t = Some is -> text_fits t ->
    is <> [] /\ Forall (free_of ",") is /\ Forall (free_of "-") is /\ text_fits (glue "," is).
  Proof.
    intros H T. apply parse_indexes_spec in H as [A B a b E HA HB La Lb Le L K|a b E S Le L K|F (N & G & Fc)].
    - assert (N : is <> []) by (intros ->; cbn in L; lia). split; [exact N|]. apply plain_pieces; [exact N|]. apply Forall_forall.
      intros s I. apply In_nth_error in I as [i I]. apply K, numeral_to_string in I as ->. split; [|apply fmt_nonempty].
      eapply sforall_impl; [|apply to_string_digits]. unfold is_digit, plain_char. intros c. lia.
    - assert (N : is <> []) by (intros ->; cbn in L; lia). split; [exact N|]. apply plain_pieces; [exact N|]. apply Forall_forall.
      intros s I. apply In_nth_error in I as [i I]. assert (i < List.length is)%nat by (apply nth_error_Some; congruence).
      apply K in I as ->. unfold letter_at. split; [|discriminate]. cbn [sforall]. unfold plain_char, byte, N_of_ascii.
      change (N_of_ascii (ascii_of_nat (nat_of_ascii a + i))) with (N_of_ascii (ascii_of_nat (nat_of_ascii a + i))).
      assert (X : N_of_ascii (ascii_of_nat (nat_of_ascii a + i)) = N.of_nat (nat_of_ascii a + i)).
      { rewrite <- (nat_ascii_embedding (nat_of_ascii a + i)) at 2 by (destruct S; lia). unfold nat_of_ascii. now rewrite N2Nat.id. }
      fold (N_of_ascii (ascii_of_nat (nat_of_ascii a + i))). rewrite X. destruct S; lia.
    - split; [exact N|]. split; [exact Fc|]. subst t. split; [|exact T]. apply Forall_forall. intros s I C. apply F.
      clear - I C. induction is as [|p [|q is] IH]; [destruct I|destruct I as [->|[]]; exact C|].
      change (glue "," (p :: q :: is)) with (p ++ String "," (glue "," (q :: is)))%string.
      rewrite list_ascii_app. apply in_or_app. destruct I as [->|I]; [now left|]. right. right. now apply IH.
  Qed.
  Lemma dim_read n d : no_blanks n -> de_parse cfg n = Ok d -> indexed d -> dim_fits l d.
  Proof.
    intros C H X. unfold de_parse in H. binds H. unfold de_build in H. cbn [required ok_or bind deb_dim deb_increment] in H.
    apply validated_ok in H as [-> H]. unfold indexed in X. unfold dim_fits.
    cbn [de_dim de_increment de_index de_name de_array_index deb_index deb_name deb_array_index] in *. rewrite str_tidy, vec_tidy in *.
    conjs; reads; [|eapply o_opt; [eassumption|exact C|intros; eapply dai_read; eauto]].
    match goal with E : optional dim_index_parse _ _ = Ok ?o |- _ => destruct o as [is|]; [|exact I]; rename E into Ei end.
    unfold optional in Ei. apply mapM_opt_ok in Ei. destruct (get_child "dimIndex" n) as [c|] eqn:Ec; [|contradiction].
    unfold dim_index_parse in Ei. apply bind_ok in Ei as (t & Et & Ei). destruct (parse_indexes t) as [is'|] eqn:Ep; [|discriminate].
    injection Ei as ->. pose proof (child_inside _ _ _ Ec) as [_ Tc]. pose proof (child_clean _ _ _ C Ec) as Cc.
    apply content_fits in Et; [|exact Cc|rewrite Tc; cbn; tauto]. apply index_read in Ep as (P1 & P2 & P3 & P4); auto.
    destruct is as [|i0 is]; [congruence|]. cbn [tidy_list] in *. specialize (X _ eq_refl). cbn [opt_all]. unfold indexes_fit. conjs; auto.
  Qed.
  Lemma any_read {A} t (name : A -> string) (f : xml -> res A) (P : A -> Prop) n x : no_blanks n -> parse_array cfg t name f n = Ok x ->
    (forall i, f n = Ok i -> i = info x -> P i) -> any_fits l name P x.
  Proof.
    intros C H F. pose proof (parse_array_ok _ _ _ _ _ _ H) as (_ & E & G).
    destruct x as [i|i d]; cbn [any_fits info] in *; [now apply F|]. destruct (G i d eq_refl) as [G1 G2]. conjs; auto.
    unfold parse_array in H. apply bind_ok in H as (u & _ & H). apply bind_ok in H as (i' & _ & H).
    destruct (is_some _); [|discriminate]. apply bind_ok in H as (d' & D & H). binds H. injection H as _ <-. now apply (dim_read n).
  Qed.
  (** Bit ranges: the document may use the whole of u32, which cannot be written back. *)
  Definition can_write (f : field_info) : Prop :=
    br_type (f_bit_range f) <> BRT_OffsetWidth ->
    1 <= br_width (f_bit_range f) /\ br_offset (f_bit_range f) + br_width (f_bit_range f) < 2 ^ 32.
  Lemma bits_read n b : bit_range_parse m n = Ok b ->
    (br_type b <> BRT_OffsetWidth -> 1 <= br_width b /\ br_offset b + br_width b < 2 ^ 32) -> bits_fit b.
  Proof.
    intros H W. apply C05_only in H as [(h & E & _)|(T & _ & _ & o & w & _ & _ & (? & _ & _ & O) & (? & _ & _ & X))].
    - assert (T : br_type b <> BRT_OffsetWidth) by (inversion E; discriminate). specialize (W T). unfold bits_fit. conjs; auto; lia.
    - unfold bits_fit. auto.
  Qed.
  Lemma field_read n f : no_blanks n -> field_info_parse m cfg n = Ok f -> can_write f -> field_fits l f.
  Proof.
    intros C H W. pose proof (field_info_parse_ok _ _ _ _ H _ (if_self f)) as V. cbn [element_ok] in V.
    unfold field_info_parse in H. binds H. unfold field_build in H. cbn [required ok_or bind fb_name fb_bit_range] in H.
    apply validated_ok in H as [-> H]. unfold field_fits. cbn [f_name f_description f_bit_range f_write_constraint f_enumerated_values
      fb_description fb_write_constraint fb_enumerated_values opt_default] in *. rewrite str_tidy in *. unfold can_write in W. cbn [f_bit_range] in W.
    match goal with B : bit_range_parse _ _ = Ok _ |- _ => apply bits_read in B; [|exact W] end.
    conjs; reads.
    - destruct (pc_ignore_enums cfg); cbn [negb] in *; [match goal with C : Ok None = Ok _ |- _ => injection C as <- end; exact I|].
      eapply o_opt; [eassumption|exact C|]. intros; eapply wc_read; eauto.
    - destruct (pc_ignore_enums cfg); cbn [negb] in *; [match goal with C : Ok [] = Ok _ |- _ => injection C as <- end; constructor|].
      eapply c_all; [eassumption|exact C|]. intros; eapply values_read; eauto.
  Qed.
  Lemma register_read n r : no_blanks n -> register_info_parse m cfg n = Ok r -> (forall f, in_register r (EField f) -> can_write f) ->
    register_fits l r.
  Proof.
    intros C H W. destruct (register_info_parse_ok _ _ _ _ H) as [V _]. specialize (V _ (ir_self r)). cbn [element_ok] in V.
    unfold register_info_parse in H. binds H. unfold register_build in H.
    cbn [required ok_or bind rb_name rb_address_offset rb_properties] in H. apply bind_ok in H as (q & Q & H). apply rp_build_ok in Q as [-> Q].
    apply validated_ok in H as [E H]. unfold register_fits.
    match goal with P : rp_parse _ _ = Ok _ |- _ => apply props_read in P end.
    match goal with E : mapM_opt _ _ = Ok ?o |- _ => rename E into Ef, o into fs end.
    assert (Fs : opt_all (fun fs => fs <> [] /\ Forall (any_fits l f_name (field_fits l)) fs) fs).
    { apply mapM_opt_ok in Ef. destruct fs as [fs|]; [|exact I]. destruct (get_child "fields" n) as [c|] eqn:Ec; [|contradiction].
      pose proof (child_inside _ _ _ Ec) as [_ Tc]. pose proof (child_clean _ _ _ C Ec) as Cc. split.
      - destruct (Cc c (in_self c)) as [_ K]. specialize (K Tc) as (e & Ie & Ke). apply collect_ok in Ef. intros ->. inversion Ef as [N|].
        assert (Z : In e (filter is_element (children c))) by (now apply filter_In). rewrite <- N in Z. destruct Z.
      - apply Forall_forall. intros f I. destruct (collect_in _ _ _ _ _ Ef I) as (e & Ie & _ & Ee). unfold field_parse in Ee.
        pose proof (below_clean _ _ Cc Ie) as Ce. eapply any_read; [exact Ce|exact Ee|]. intros i Ei ->. apply (field_read e); auto.
        apply W. subst r. apply ir_field with fs f; [reflexivity|exact I|constructor]. }
    subst r. cbn [r_name r_display_name r_description r_alternate_group r_alternate_register r_address_offset r_properties r_write_constraint r_fields
      rb_display_name rb_description rb_alternate_group rb_alternate_register rb_write_constraint rb_fields] in *.
    conjs; reads. eapply o_opt; [eassumption|exact C|]. intros; eapply wc_read; eauto.
  Qed.
  Lemma cluster_read n c kids : no_blanks n -> cluster_info_parse cfg kids n = Ok c -> cluster_fits l c.
  Proof.
    intros C H. pose proof (cluster_info_parse_ok _ _ _ _ H) as (_ & _ & V). unfold cluster_info_parse in H. binds H. unfold cluster_build in H.
    cbn [required ok_or bind cb_name cb_address_offset cb_default_properties cb_children] in H. apply bind_ok in H as (q & Q & H). apply rp_build_ok in Q as [-> Q].
    apply validated_ok in H as [E H]. match goal with P : rp_parse _ _ = Ok _ |- _ => apply props_read in P end.
    subst c. unfold cluster_fits. cbn [c_name c_description c_alternate_cluster c_header_struct_name c_address_offset c_default_properties
      cb_description cb_alternate_cluster cb_header_struct_name] in *. rewrite !str_tidy in *. conjs; reads.
  Qed.
  Lemma rc_read n : forall rc, no_blanks n -> rc_parse m cfg n = Ok rc -> (forall f, in_rc rc (EField f) -> can_write f) -> rc_fits l rc.
  Proof.
    induction n as [t a k IH|s|] using xml_tree_ind; intros rc C H W; [|discriminate..]. cbn [rc_parse tag] in H.
    destruct (seqb t "register").
    - apply rmap_ok in H as (r & H & ->). unfold register_parse in H. constructor. eapply any_read; [exact C|exact H|].
      intros i Ei ->. eapply register_read; [exact C|exact Ei|]. intros f I. apply W. now constructor.
    - destruct (seqb t "cluster"); [|discriminate]. apply rmap_ok in H as (c & H & ->). constructor.
      + eapply any_read; [exact C|exact H|]. intros i Ei _. eapply cluster_read; eauto.
      + apply parse_array_ok in H as (_ & H & _). apply cluster_info_parse_ok in H as (K & _). apply Forall_forall. intros rc I.
        destruct (collect_in _ _ _ _ _ K I) as (e & Ie & _ & Ee). rewrite Forall_forall in IH. apply (IH e Ie); auto.
        * now apply (below_clean (Elem t a k)).
        * intros f If. apply W. now apply ic_child with rc.
  Qed.
  Lemma block_read n b : ab_parse cfg n = Ok b -> block_fits b.
  Proof. intros H. unfold ab_parse in H. binds H. unfold ab_build in H. cbn in H. injection H as <-. split; cbn; reads. Qed.
  Lemma interrupt_read n i : no_blanks n -> it_parse cfg n = Ok i -> interrupt_fits i.
  Proof. intros C H. unfold it_parse in H. binds H. unfold it_build in H. cbn in H. injection H as <-. unfold interrupt_fits. cbn. conjs; reads. Qed.
  Lemma peripheral_read n p : no_blanks n -> peripheral_info_parse m cfg n = Ok p -> (forall f, in_peripheral p (EField f) -> can_write f) ->
    peripheral_fits l p.
  Proof.
    intros C H W. destruct (peripheral_info_parse_ok _ _ _ _ H) as [V _]. specialize (V _ (ip_self p)). cbn [element_ok] in V.
    unfold peripheral_info_parse in H. binds H. unfold peripheral_build in H.
    cbn [required ok_or bind pb_name pb_base_address pb_default_properties] in H. apply bind_ok in H as (q & Q & H). apply rp_build_ok in Q as [-> Q].
    apply validated_ok in H as [E H].
    match goal with P : rp_parse _ _ = Ok _ |- _ => apply props_read in P end.
    match goal with E : mapM_opt _ _ = Ok ?o |- _ => rename E into Ef, o into rs end.
    match goal with E : collect _ (ab_parse _) _ = Ok ?o |- _ => rename E into Ea, o into abs end.
    match goal with E : collect _ (it_parse _) _ = Ok ?o |- _ => rename E into Eit, o into its end.
    assert (Fs : opt_all (Forall (rc_fits l)) rs).
    { apply mapM_opt_ok in Ef. destruct rs as [rs|]; [|exact I]. destruct (get_child "registers" n) as [c|] eqn:Ec; [|contradiction].
      pose proof (child_clean _ _ _ C Ec) as Cc. apply Forall_forall. intros rc I. destruct (collect_in _ _ _ _ _ Ef I) as (e & Ie & _ & Ee).
      apply (rc_read e); auto; [now apply (below_clean c)|]. intros f If. apply W. subst p. apply ip_child with rs rc; auto. }
    subst p. unfold peripheral_fits. cbn [p_name p_display_name p_version p_description p_alternate_peripheral p_group_name p_prepend_to_name
      p_append_to_name p_header_struct_name p_base_address p_default_properties p_address_block p_interrupt p_registers
      pb_display_name pb_version pb_description pb_alternate_peripheral pb_group_name pb_prepend_to_name
      pb_append_to_name pb_header_struct_name pb_address_block pb_interrupt pb_registers opt_default] in *. rewrite !str_tidy in *. conjs; reads.
    - destruct abs as [|b0 abs]; cbn [is_nil opt_all]; [exact I|]. split; [discriminate|]. eapply c_all; [exact Ea|exact C|]. intros; eapply block_read; eauto.
    - eapply c_all; [exact Eit|exact C|]. intros; eapply interrupt_read; eauto.
  Qed.
  Lemma cpu_read n c : no_blanks n -> cpu_parse cfg n = Ok c -> cpu_fits c.
  Proof.
    intros C H. unfold cpu_parse in H. binds H. unfold cpu_build in H. cbn in H. injection H as <-. unfold cpu_fits.
    cbn [cpu_name cpu_revision cpu_nvic_priority_bits cpu_device_num_interrupts cpu_sau_num_regions]. conjs; reads.
  Qed.
  Theorem device_read n d : no_blanks n -> device_parse m cfg n = Ok d -> (forall f, in_device d (EField f) -> can_write f) -> device_fits l d.
  Proof.
    intros C H W. destruct (device_parse_ok _ _ _ _ H) as [V _]. specialize (V _ (id_self d)). cbn [element_ok] in V.
    unfold device_parse in H. binds H. unfold device_build in H.
    cbn [required ok_or bind db_name] in H.
    apply bind_ok in H as (ver & Ev & H). apply bind_ok in H as (des & Ed & H). apply bind_ok in H as (aub & Eu & H). apply bind_ok in H as (wid & Ew & H).
    cbn [required ok_or bind db_default_properties db_peripherals db_version db_description db_address_unit_bits db_width] in *.
    apply bind_ok in H as (q & Q & H). apply rp_build_ok in Q as [-> Q]. apply validated_ok in H as [E H].
    match goal with P : rp_parse _ _ = Ok _ |- _ => apply props_read in P end.
    match goal with E : collect is_element _ _ = Ok ?o |- _ => rename E into Ep, o into ps end.
    match goal with E : get_child_elem _ _ = Ok ?o |- _ => rename E into Ee, o into pe end.
    assert (Fp : Forall (any_fits l p_name (peripheral_fits l)) ps).
    { assert (Cp : no_blanks pe). { unfold get_child_elem in Ee. destruct (get_child "peripherals" n) eqn:G; [|discriminate]. injection Ee as ->. now apply (child_clean _ _ _ C G). }
      apply Forall_forall. intros p I. destruct (collect_in _ _ _ _ _ Ep I) as (e & Ie & _ & K). unfold peripheral_parse in K.
      pose proof (below_clean _ _ Cp Ie) as Ce.
      eapply any_read; [exact Ce|exact K|]. intros i Ei ->. apply (peripheral_read e); auto. intros f If. apply W. subst d. apply id_peripheral with p; auto. }
    subst d. unfold device_fits. cbn [d_vendor d_vendor_id d_name d_series d_version d_description d_license_text d_cpu d_header_system_filename
      d_header_definitions_prefix d_address_unit_bits d_width d_default_properties d_peripherals
      db_vendor db_vendor_id db_series db_license_text db_cpu db_header_system_filename db_header_definitions_prefix] in *.
    conjs; reads.
    - match type of Ev with required _ (unless_strict _ _ ?o) = _ => assert (T : text_opt o) by reads; destruct o as [v|] end.
      + injection Ev as <-. exact T.
      + unfold unless_strict in Ev. cbn in Ev. destruct (is_strict _); [discriminate|]. injection Ev as <-. now apply visible_fits.
    - match type of Ed with required _ (unless_strict _ _ ?o) = _ => assert (T : text_opt o) by reads; destruct o as [v|] end.
      + injection Ed as <-. left. exact T.
      + unfold unless_strict in Ed. cbn in Ed. fold l in Ed. destruct (is_strict l) eqn:L; [discriminate|]. injection Ed as <-. right. split; auto.
        intros Z. rewrite Z in L. discriminate.
    - eapply o_opt; [eassumption|exact C|]. intros; eapply cpu_read; eauto.
    - match type of Eu with required _ (unless_strict _ _ ?o) = _ => assert (T : below pow32 o) by reads; destruct o as [v|] end.
      + injection Eu as <-. exact T.
      + unfold unless_strict in Eu. cbn in Eu. destruct (is_strict _); [discriminate|]. now injection Eu as <-.
    - match type of Ew with required _ (unless_strict _ _ ?o) = _ => assert (T : below pow32 o) by reads; destruct o as [v|] end.
      + injection Ew as <-. exact T.
      + unfold unless_strict in Ew. cbn in Ew. destruct (is_strict _); [discriminate|]. now injection Ew as <-.
  Qed.
End Fit.
