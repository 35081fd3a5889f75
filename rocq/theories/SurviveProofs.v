(** Proofs for C80: parsed and expanded devices have numbers in the ranges of their types. *)
From Verif Require Import Base BaseFacts Num NumProofs EnumProofs Types Names Validate Builders Arrays Config Sort Xml Encode
  Parse SpecNum SpecArray ArrayProofs IndexProofs SpecText TrimProofs SpecXml XmlFacts BitProofs PropBits SpecValidate ValidateProofs
  SpecBuild BuilderProofs SpecParse ParseProofs TreeFacts SpecRound SpecSerde FitProofs SpecDerive SpecExpand ExactProofs SpecAgain AgainProofs.

(** ** Numbers of parsed documents *)
Lemma o_num {A} (f : xml -> res A) (P : A -> Prop) k n o : optional f k n = Ok o -> (forall c a, f c = Ok a -> P a) -> opt_all P o.
Proof. unfold optional. intros H F. apply mapM_opt_ok in H. destruct (get_child k n) as [c|] eqn:E, o; try easy. cbn. now apply (F c). Qed.
Lemma c_num {A} p (f : xml -> res A) (P : A -> Prop) n r : collect p f n = Ok r -> (forall c a, In c n -> f c = Ok a -> P a) -> Forall P r.
Proof. intros H F. apply Forall_forall. intros a I. destruct (collect_in _ _ _ _ _ H I) as (c & Ic & _ & E). now apply (F c). Qed.
Ltac nums := repeat first
  [ eassumption | (eapply n_opt; [eassumption|reflexivity]) | (eapply n_u32; eassumption) | (eapply n_u64; eassumption) ].
Section Parsed.
  Variables (m : mode) (cfg : pconfig) (B : bit_range -> Prop).
  Hypothesis HB : forall n b, bit_range_parse m n = Ok b -> B b.
  Notation J := indexes_in.

  Lemma props_num n p : rp_parse cfg n = Ok p -> props_in p.
  Proof. intros H. apply props_read in H as (A1 & A2 & A3 & _). repeat split; assumption. Qed.
  Lemma value_num n e : ev_item cfg n = Ok e -> value_in e.
  Proof.
    intros H. unfold ev_item in H. destruct (has_tag _ n); [|discriminate].
    unfold ev_parse in H. binds H. unfold ev_build in H. cbn [required ok_or bind evb_name] in H. apply validated_ok in H as [-> H].
    unfold value_in. cbn [ev_value evb_value]. nums.
  Qed.
  Lemma values_num n e : evs_parse cfg n = Ok e -> values_in e.
  Proof.
    intros H. unfold evs_parse in H. binds H. unfold evs_build in H. apply validated_ok in H as [-> H]. unfold values_in.
    cbn [evs_values evsb_values opt_default]. eapply c_num; eauto. intros; eapply value_num; eauto.
  Qed.
  Lemma index_num t is : parse_indexes t = Some is -> indexes_in is.
  Proof.
    intros H. apply parse_indexes_spec in H as [A C a b E HA HC La Lb Le L K|a b E S Le L K|F (N & G & Fc)].
    - assert (N : is <> []) by (intros ->; cbn in L; lia). split; [exact N|].
      destruct (plain_pieces is N) as (P1 & P2 & _); [|auto]. apply Forall_forall.
      intros s I. apply In_nth_error in I as [i I]. apply K, numeral_to_string in I as ->. split; [|apply fmt_nonempty].
      eapply sforall_impl; [|apply to_string_digits]. unfold is_digit, plain_char. intros c. lia.
    - assert (N : is <> []) by (intros ->; cbn in L; lia). split; [exact N|].
      destruct (plain_pieces is N) as (P1 & P2 & _); [|auto]. apply Forall_forall.
      intros s I. apply In_nth_error in I as [i I]. assert (i < List.length is)%nat by (apply nth_error_Some; congruence).
      apply K in I as ->. unfold letter_at. split; [|discriminate]. cbn [sforall]. unfold plain_char, byte, N_of_ascii.
      assert (X : N_of_ascii (ascii_of_nat (nat_of_ascii a + i)) = N.of_nat (nat_of_ascii a + i)).
      { rewrite <- (nat_ascii_embedding (nat_of_ascii a + i)) at 2 by (destruct S; lia). unfold nat_of_ascii. now rewrite N2Nat.id. }
      fold (N_of_ascii (ascii_of_nat (nat_of_ascii a + i))). rewrite X. destruct S; lia.
    - split; [exact N|]. split; [exact Fc|]. subst t. apply Forall_forall. intros s I C. apply F.
      clear - I C. induction is as [|p [|q is] IH]; [destruct I|destruct I as [->|[]]; exact C|].
      change (glue "," (p :: q :: is)) with (p ++ String "," (glue "," (q :: is)))%string.
      rewrite list_ascii_app. apply in_or_app. destruct I as [->|I]; [now left|]. right. right. now apply IH.
  Qed.
  Lemma dai_num n d : dai_parse cfg n = Ok d -> Forall value_in (dai_values d).
  Proof.
    intros H. unfold dai_parse in H. binds H. injection H as <-. cbn [dai_values]. eapply c_num; eauto. intros; eapply value_num; eauto.
  Qed.
  Lemma dim_num n d : de_parse cfg n = Ok d -> dim_holds J d.
  Proof.
    intros H. unfold de_parse in H. binds H. unfold de_build in H. cbn [required ok_or bind deb_dim deb_increment] in H.
    apply validated_ok in H as [-> H]. unfold dim_holds.
    cbn [de_dim de_increment de_index de_name de_array_index deb_index deb_name deb_array_index] in *. rewrite vec_tidy in *.
    conjs; nums; [|eapply o_num; [eassumption|intros; eapply dai_num; eauto]].
    match goal with E : optional dim_index_parse _ _ = Ok ?o |- _ => assert (X : opt_all J o) end.
    { eapply o_num; [eassumption|]. intros c is E. unfold dim_index_parse in E. apply bind_ok in E as (t & Et & E).
      destruct (parse_indexes t) as [is'|] eqn:Ep; [|discriminate]. injection E as <-. now apply index_num in Ep. }
    match goal with |- opt_all J (tidy_list ?o) => destruct o as [[|]|]; cbn; auto end.
  Qed.
  Lemma any_num {A} t (name : A -> string) (f : xml -> res A) (P : A -> Prop) n x : parse_array cfg t name f n = Ok x ->
    (forall i, f n = Ok i -> P i) -> any_holds J P x.
  Proof.
    intros H F. pose proof (parse_array_ok _ _ _ _ _ _ H) as (_ & E & G).
    destruct x as [i|i d]; cbn [any_holds info] in *; [now apply F|]. split; [now apply F|].
    unfold parse_array in H. apply bind_ok in H as (u & _ & H). apply bind_ok in H as (i' & _ & H).
    destruct (is_some _); [|discriminate]. apply bind_ok in H as (d' & D & H). binds H. injection H as _ <-. now apply (dim_num n).
  Qed.
  Lemma field_num n f : field_info_parse m cfg n = Ok f -> field_holds B f.
  Proof.
    intros H. unfold field_info_parse in H. binds H. unfold field_build in H. cbn [required ok_or bind fb_name fb_bit_range] in H.
    apply validated_ok in H as [-> H]. unfold field_holds. cbn [f_bit_range f_write_constraint f_enumerated_values
      fb_write_constraint fb_enumerated_values opt_default] in *. split; [eapply HB; eassumption|]. split.
    - destruct (pc_ignore_enums cfg); cbn [negb] in *; [match goal with C : Ok None = Ok _ |- _ => injection C as <- end; exact I|].
      eapply o_num; [eassumption|]. intros; eapply wc_read; eauto.
    - destruct (pc_ignore_enums cfg); cbn [negb] in *; [match goal with C : Ok [] = Ok _ |- _ => injection C as <- end; constructor|].
      eapply c_num; [eassumption|]. intros; eapply values_num; eauto.
  Qed.
  Lemma register_num n r : register_info_parse m cfg n = Ok r -> register_holds J B r.
  Proof.
    intros H. unfold register_info_parse in H. binds H. unfold register_build in H.
    cbn [required ok_or bind rb_name rb_address_offset rb_properties] in H. apply bind_ok in H as (q & Q & H). apply rp_build_ok in Q as [-> Q].
    apply validated_ok in H as [E H]. unfold register_holds.
    match goal with P : rp_parse _ _ = Ok _ |- _ => apply props_num in P end.
    match goal with E : mapM_opt _ _ = Ok ?o |- _ => rename E into Ef, o into fs end.
    assert (Fs : opt_all (Forall (any_holds J (field_holds B))) fs).
    { apply mapM_opt_ok in Ef. destruct fs as [fs|]; [|exact I]. destruct (get_child "fields" n) as [c|] eqn:Ec; [|contradiction].
      eapply c_num; [exact Ef|]. intros e f _ Ee. eapply any_num; [exact Ee|]. intros; eapply field_num; eauto. }
    subst r. cbn [r_address_offset r_properties r_write_constraint r_fields rb_write_constraint rb_fields] in *.
    conjs; nums. eapply o_num; [eassumption|]. intros; eapply wc_read; eauto.
  Qed.
  Lemma cluster_num n c kids : cluster_info_parse cfg kids n = Ok c -> cluster_in c.
  Proof.
    intros H. unfold cluster_info_parse in H. binds H. unfold cluster_build in H.
    cbn [required ok_or bind cb_name cb_address_offset cb_default_properties cb_children] in H. apply bind_ok in H as (q & Q & H). apply rp_build_ok in Q as [-> Q].
    apply validated_ok in H as [E H]. match goal with P : rp_parse _ _ = Ok _ |- _ => apply props_num in P end.
    subst c. split; cbn [c_address_offset c_default_properties]; nums.
  Qed.
  Lemma rc_num n : forall rc, rc_parse m cfg n = Ok rc -> rc_holds J B rc.
  Proof.
    induction n as [t a k IH|s|] using xml_tree_ind; intros rc H; [|discriminate..]. cbn [rc_parse tag] in H.
    destruct (seqb t "register").
    - apply rmap_ok in H as (r & H & ->). unfold register_parse in H. constructor. eapply any_num; [exact H|]. intros; eapply register_num; eauto.
    - destruct (seqb t "cluster"); [|discriminate]. apply rmap_ok in H as (c & H & ->). constructor.
      + eapply any_num; [exact H|]. intros; eapply cluster_num; eauto.
      + apply parse_array_ok in H as (_ & H & _). apply cluster_info_parse_ok in H as (K & _). apply Forall_forall. intros rc I.
        destruct (collect_in _ _ _ _ _ K I) as (e & Ie & _ & Ee). rewrite Forall_forall in IH. now apply (IH e Ie).
  Qed.
  Lemma peripheral_num n p : peripheral_info_parse m cfg n = Ok p -> peripheral_holds J B p.
  Proof.
    intros H. unfold peripheral_info_parse in H. binds H. unfold peripheral_build in H.
    cbn [required ok_or bind pb_name pb_base_address pb_default_properties] in H. apply bind_ok in H as (q & Q & H). apply rp_build_ok in Q as [-> Q].
    apply validated_ok in H as [E H].
    match goal with P : rp_parse _ _ = Ok _ |- _ => apply props_num in P end.
    match goal with E : mapM_opt _ _ = Ok ?o |- _ => rename E into Ef, o into rs end.
    match goal with E : collect _ (ab_parse _) _ = Ok ?o |- _ => rename E into Ea, o into abs end.
    match goal with E : collect _ (it_parse _) _ = Ok ?o |- _ => rename E into Eit, o into its end.
    assert (Fs : opt_all (Forall (rc_holds J B)) rs).
    { apply mapM_opt_ok in Ef. destruct rs as [rs|]; [|exact I]. destruct (get_child "registers" n) as [c|] eqn:Ec; [|contradiction].
      eapply c_num; [exact Ef|]. intros e rc _ Ee. now apply (rc_num e). }
    subst p. unfold peripheral_holds. cbn [p_base_address p_default_properties p_address_block p_interrupt p_registers
      pb_address_block pb_interrupt pb_registers opt_default] in *. conjs; nums.
    - destruct abs as [|b0 abs]; cbn [is_nil opt_all]; [exact I|]. eapply c_num; [exact Ea|]. intros; eapply block_read; eauto.
    - eapply c_num; [exact Eit|]. intros c i _ K. unfold it_parse in K. binds K. unfold it_build in K. cbn in K. injection K as <-. cbn. nums.
  Qed.
  Lemma cpu_num n c : cpu_parse cfg n = Ok c -> cpu_in c.
  Proof.
    intros H. unfold cpu_parse in H. binds H. unfold cpu_build in H. cbn in H. injection H as <-. unfold cpu_in.
    cbn [cpu_nvic_priority_bits cpu_device_num_interrupts cpu_sau_num_regions]. conjs; nums.
  Qed.
  Theorem device_num n d : device_parse m cfg n = Ok d -> device_holds J B d.
  Proof.
    intros H. unfold device_parse in H. binds H. unfold device_build in H.
    cbn [required ok_or bind db_name] in H.
    apply bind_ok in H as (ver & Ev & H). apply bind_ok in H as (des & Ed & H). apply bind_ok in H as (aub & Eu & H). apply bind_ok in H as (wid & Ew & H).
    cbn [required ok_or bind db_default_properties db_peripherals db_version db_description db_address_unit_bits db_width] in *.
    apply bind_ok in H as (q & Q & H). apply rp_build_ok in Q as [-> Q]. apply validated_ok in H as [E H].
    match goal with P : rp_parse _ _ = Ok _ |- _ => apply props_num in P end.
    match goal with E : collect is_element _ _ = Ok ?o |- _ => rename E into Ep, o into ps end.
    assert (Fp : Forall (any_holds J (peripheral_holds J B)) ps).
    { eapply c_num; [exact Ep|]. intros e p _ K. eapply any_num; [exact K|]. intros; eapply peripheral_num; eauto. }
    subst d. unfold device_holds. cbn [d_cpu d_address_unit_bits d_width d_default_properties d_peripherals db_cpu] in *.
    conjs; nums.
    - eapply o_num; [eassumption|]. intros; eapply cpu_num; eauto.
    - match type of Eu with required _ (unless_strict _ _ ?o) = _ => assert (T : below pow32 o) by nums; destruct o as [v|] end.
      + injection Eu as <-. exact T.
      + unfold unless_strict in Eu. cbn in Eu. destruct (is_strict _); [discriminate|]. now injection Eu as <-.
    - match type of Ew with required _ (unless_strict _ _ ?o) = _ => assert (T : below pow32 o) by nums; destruct o as [v|] end.
      + injection Ew as <-. exact T.
      + unfold unless_strict in Ew. cbn in Ew. destruct (is_strict _); [discriminate|]. now injection Ew as <-.
  Qed.
End Parsed.

(** ** Numbers of expanded descriptions *)
Section Expanded.
  Variables (J : list string -> Prop) (B : bit_range -> Prop) (m : mode) (d : device).
  Hypothesis HD : device_holds J B d.
  Hypothesis HI : forall b o, B b -> o < 2 ^ 32 -> B {| br_offset := o; br_width := br_width b; br_type := BRT_OffsetWidth |}.

  Lemma any_holds_info {A} (P : A -> Prop) (x : maybe_array A) : any_holds J P x -> P (info x).
  Proof. destruct x; cbn; tauto. Qed.
  Lemma h_peripheral p : In p (d_peripherals d) -> peripheral_holds J B (info p).
  Proof. intros I. destruct HD as (_ & _ & _ & _ & F). rewrite Forall_forall in F. now apply any_holds_info, F. Qed.
  Lemma h_children path kids : children_placed d path kids -> Forall (rc_holds J B) kids.
  Proof.
    induction 1 as [path p (n & _ & I & _)|path n kids c H IH I C].
    - apply h_peripheral in I as (_ & _ & _ & _ & K). destruct (p_registers (info p)); [exact K|constructor].
    - rewrite Forall_forall in IH. specialize (IH _ I). now inversion IH.
  Qed.
  Lemma h_cluster path c : cluster_placed d path c -> rc_holds J B (RCCluster c).
  Proof. intros (b & n & kids & _ & H & I & _). apply h_children in H. rewrite Forall_forall in H. auto. Qed.
  Lemma h_register path r : register_placed d path r -> register_holds J B (info r).
  Proof.
    intros (b & n & kids & _ & H & I & _). apply h_children in H. rewrite Forall_forall in H. specialize (H _ I). inversion H; subst.
    now apply any_holds_info.
  Qed.
  Lemma h_field path f : field_placed d path f -> field_holds B (info f).
  Proof.
    intros (b & n & r & _ & H & I & _). apply h_register in H. destruct H as (_ & _ & _ & H). destruct (r_fields (info r)); [|destruct I].
    cbn in H, I. rewrite Forall_forall in H. now apply any_holds_info, H.
  Qed.
  Lemma h_values path e : values_placed d path e -> values_in e.
  Proof.
    intros (b & n & f & _ & H & I & _). apply h_field in H. destruct H as (_ & _ & H). rewrite Forall_forall in H. auto.
  Qed.

  Lemma values_survive ctx e e' : values_in e -> values_expanded d ctx e e' -> values_in e'.
  Proof.
    intros A (chain & F & N & _ & _ & V).
    apply (nearest_list_all evs_values (Forall value_in)) in V; [exact V|constructor|]. constructor; [exact A|].
    apply (@Forall_impl _ values_in); [auto|eapply follows_all; [|exact F]]. intros c s path x (_ & P). eapply h_values; eassumption.
  Qed.
  Lemma field_survive ctx f out : field_holds B (info f) -> field_expanded m d ctx f out -> Forall (field_holds B) out.
  Proof.
    intros Ff (chain & f1 & ctx' & evs & F & (ND & En & Eb & _ & Vd & _ & _ & Vw & _ & Vv) & _ & EV & I).
    assert (CI : Forall (field_holds B) (map info (f :: paths chain))).
    { apply chain_infos; [exact Ff|]. eapply follows_all; [|exact F]. intros c s path x [_ P]. eapply h_field; eassumption. }
    destruct Ff as (F1 & F2 & F3).
    assert (Dw : opt_all constraint_fits (f_write_constraint (info f1))).
    { eapply nearest_all; [|exact Vw]. eapply Forall_impl; [|exact CI]. now intros y (_ & Y & _). }
    assert (Dv : Forall values_in (f_enumerated_values (info f1))).
    { apply (nearest_list_all f_enumerated_values (Forall values_in)) in Vv; [exact Vv|constructor|].
      eapply Forall_impl; [|exact CI]. now intros y (_ & _ & Y). }
    assert (De : Forall values_in evs). { eapply Forall2_right; [exact EV|exact Dv|]. intros a b. apply values_survive. }
    eapply (instances_all _ (field_holds B) (field_holds B) (fun _ => True)); [exact I| |auto|auto|].
    - assert (Q : field_holds B (field_with (info f1) evs)).
      { unfold field_holds, field_with. cbn. rewrite Eb. auto. }
      now destruct f1.
    - intros i e k y (H1 & H2 & H3) T K (idx & X & Y1 & Y2 & Y3 & Y4 & Y5 & _ & _ & Y6 & _ & Y7 & _).
      unfold field_holds. rewrite Y6, Y7. split; [|auto]. destruct (f_bit_range y) as [o w t]. cbn in *. subst w t. apply HI; [exact H1|].
      eapply sum_below; [|exact Y3]. reflexivity.
  Qed.
  Lemma props_survive {A} (get : A -> reg_props) xs v : Forall (fun x => props_in (get x)) xs -> nearest_props get xs v -> props_in v.
  Proof. apply (numbers_kept get xs v). Qed.
  Definition plainly (fs : list field) : Prop := exists is, fs = map Single is /\ Forall (field_holds B) is.
  Definition rs_ (r : register_info) : Prop :=
    r_address_offset r < 2 ^ 32 /\ props_in (r_properties r) /\ opt_all constraint_fits (r_write_constraint r) /\ opt_all plainly (r_fields r).
  Definition ps_ (p : peripheral_info) : Prop :=
    p_base_address p < 2 ^ 64 /\ props_in (p_default_properties p) /\
    opt_all (Forall block_fits) (p_address_block p) /\ Forall (fun i => it_value i < 2 ^ 32) (p_interrupt p) /\
    opt_all (fun rs => exists is, rs = map (fun i => RCRegister (Single i)) is /\ Forall rs_ is) (p_registers p).
  Lemma register_survive ctx r out : register_holds J B (info r) -> register_expanded m d ctx r out -> Forall rs_ out.
  Proof.
    intros Fr (chain & r1 & ctx' & fs & F & (ND & En & Edn & Eag & Ear & Eo & _ & _ & Vp & Vd & _ & Vw & _ & Vf) & _ & EF & I).
    assert (CI : Forall (register_holds J B) (map info (r :: paths chain))).
    { apply chain_infos; [exact Fr|]. eapply follows_all; [|exact F]. intros c s path x [_ P]. eapply h_register; eassumption. }
    assert (Dw : opt_all constraint_fits (r_write_constraint (info r1))).
    { eapply nearest_all; [|exact Vw]. eapply Forall_impl; [|exact CI]. now intros y (_ & _ & Y & _). }
    assert (Dp : props_in (r_properties (info r1))).
    { eapply props_survive; [|exact Vp]. eapply Forall_impl; [|exact CI]. now intros y (_ & Y & _). }
    assert (Df : opt_all (Forall (any_holds J (field_holds B))) (r_fields (info r1))).
    { eapply nearest_all; [|exact Vf]. eapply Forall_impl; [|exact CI]. now intros y (_ & _ & _ & Y). }
    assert (Do : opt_all plainly fs).
    { destruct (r_fields (info r1)) as [x|]; [|now subst fs]. destruct EF as (groups & FF & ->). cbn in *.
      exists (List.concat groups). split; [reflexivity|]. apply Forall_concat'. eapply Forall2_right; [exact FF|exact Df|].
      intros a b H. apply field_survive. now apply any_holds_info. }
    eapply (instances_all _ rs_ rs_ (fun _ => True)); [exact I| |auto|auto|].
    - assert (Q : rs_ (register_with (info r1) fs)).
      { unfold rs_, register_with. cbn. rewrite Eo. split; [apply Fr|]. auto. }
      now destruct r1.
    - intros i e k y (H1 & H2 & H3 & H4) T K (idx & X & Y1 & Y2 & Y3 & Y4 & Y5 & Y6 & Y7 & _ & _ & Y8 & _ & Y9 & _).
      unfold rs_. rewrite Y7, Y8, Y9. split; [eapply sum_below; [reflexivity|exact Y4]|]. auto.
  Qed.
  Lemma child_survive ctx rc out : rc_holds J B rc -> child_expanded m d ctx rc out -> Forall rs_ out.
  Proof.
    intros K H. revert K. refine (child_ind m d (fun ctx rc out => rc_holds J B rc -> Forall rs_ out) _ _ ctx rc out H); clear ctx rc out H.
    - intros ctx r out H K. inversion K; subst. eapply register_survive; [|eassumption]. now apply any_holds_info.
    - intros ctx c chain c1 ctx' groups cs outs F (ND & En & _ & _ & _ & _ & _ & _ & Vk) _ FG IH I HO K.
      inversion K as [|? Fc Kc]; subst.
      assert (D2 : Forall (rc_holds J B) (c_children (info c1))).
      { apply (nearest_list_all c_children (Forall (rc_holds J B))) in Vk; [exact Vk|constructor|].
        apply (chain_infos (fun y => Forall (rc_holds J B) (c_children y))); [exact Kc|]. eapply follows_all; [|exact F].
        intros x s path y [_ P]. apply h_cluster in P. now inversion P. }
      assert (G : Forall rs_ (List.concat groups)).
      { apply Forall_concat'. eapply Forall2_right; [exact IH|exact D2|]. cbn. auto. }
      apply Forall_concat'. eapply (Forall2_right _ (fun _ => True)); [exact HO|apply Forall_forall; auto|]. cbn. intros k o _ Ho.
      eapply Forall2_right; [exact Ho|exact G|].
      intros x y (H1 & H2 & H3 & H4) (Y1 & Y2 & Y3 & Y4 & Y5 & Y6 & Y7 & _ & _ & Y8 & _ & Y9 & _).
      unfold rs_. rewrite Y7, Y8, Y9. split; [eapply sum_below; [reflexivity|exact Y2]|]. auto.
  Qed.
  Lemma peripheral_survive p out : In p (d_peripherals d) -> peripheral_expanded m d p out -> Forall ps_ out.
  Proof.
    intros Ip (chain & p1 & ctx' & rs & F & (ND & En & Edn & Eap & Eb & _ & Vp & Vv & Vd & Vg & Vpre & Vapp & Vh & Vb & Vi & Vr) & _ & ER & I).
    assert (CI : Forall (peripheral_holds J B) (map info (p :: paths chain))).
    { apply chain_infos; [now apply h_peripheral|]. eapply follows_all; [|exact F]. intros c s path x [_ (n & _ & P & _)]. now apply h_peripheral. }
    assert (Do : opt_all (fun rs => exists is, rs = map (fun i => RCRegister (Single i)) is /\ Forall rs_ is) rs).
    { assert (Df : opt_all (Forall (rc_holds J B)) (p_registers (info p1))).
      { eapply nearest_all; [|exact Vr]. eapply Forall_impl; [|exact CI]. now intros y (_ & _ & _ & _ & Y). }
      destruct (p_registers (info p1)) as [x|]; [|now subst rs]. destruct ER as (groups & FF & ->). cbn in *.
      exists (List.concat groups). split; [reflexivity|]. apply Forall_concat'. eapply Forall2_right; [exact FF|exact Df|].
      intros a b. apply child_survive. }
    assert (Q : ps_ (peripheral_with (info p1) rs)).
    { unfold ps_, peripheral_with. cbn. rewrite Eb. split; [apply h_peripheral; exact Ip|].
      split. { eapply props_survive; [|exact Vp]. eapply Forall_impl; [|exact CI]. now intros y (_ & Y & _). }
      split. { eapply nearest_all; [|exact Vb]. eapply Forall_impl; [|exact CI]. now intros y (_ & _ & Y & _). }
      split; [|exact Do].
      apply (nearest_list_all p_interrupt (Forall (fun i => it_value i < 2 ^ 32))) in Vi; [exact Vi|constructor|].
      eapply Forall_impl; [|exact CI]. now intros y (_ & _ & _ & Y & _). }
    eapply (instances_all _ ps_ ps_ (fun _ => True)); [exact I|now destruct p1|auto|auto|].
    intros i e k y (H1 & H2 & H3 & H4 & H5) T K
      (idx & X & Y1 & Y2 & Y3 & Y4 & Y5 & Y6 & Y7 & Y8 & Y9 & Y10 & Y11 & Y12 & Y13 & Y14 & _).
    unfold ps_. rewrite Y11, Y12, Y13, Y14. split; [eapply sum_below; [reflexivity|exact Y4]|]. auto.
  Qed.
  Theorem expanded_holds J' e : device_expanded m d e -> device_holds J' B e.
  Proof.
    intros (S & groups & G & E).
    assert (K : Forall ps_ (List.concat groups)).
    { apply Forall_concat'. eapply (Forall2_right _ (fun p => In p (d_peripherals d))); [exact G|apply Forall_forall; auto|].
      cbn. intros p out. now apply peripheral_survive. }
    destruct S as (S1 & S2 & S3 & S4 & S5 & S6 & S7 & S8 & S9 & S10 & S11 & S12 & S13 & _).
    destruct HD as (D1 & D2 & D3 & D4 & _). unfold device_holds. rewrite S8, S11, S12, S13. repeat (split; [assumption|]).
    rewrite E. apply Forall_forall. intros p Ip. apply in_map_iff in Ip as (i & <- & Ii). cbn. rewrite Forall_forall in K.
    destruct (K _ Ii) as (K1 & K2 & K3 & K4 & K5). repeat (split; [assumption|]).
    destruct (p_registers i) as [rs|]; [|exact I]. destruct K5 as (is & -> & F). apply Forall_forall. intros rc Ir.
    apply in_map_iff in Ir as (r & <- & Ir). constructor. cbn. rewrite Forall_forall in F. destruct (F _ Ir) as (R1 & R2 & R3 & R4).
    repeat (split; [assumption|]). destruct (r_fields r) as [fs|]; [|exact I]. destruct R4 as (js & -> & G'). apply Forall_forall. intros f If.
    apply in_map_iff in If as (j & <- & Ij). cbn. rewrite Forall_forall in G'. auto.
  Qed.
End Expanded.

(** ** More about the bits of the fields *)
Section More.
  Variables (J : list string -> Prop) (B B' : bit_range -> Prop).
  Notation more x := (forall f, x (EField f) -> B (f_bit_range f) -> B' (f_bit_range f)) (only parsing).
  Lemma any_more {A} (P P' : A -> Prop) (x : maybe_array A) : (P (info x) -> P' (info x)) -> any_holds J P x -> any_holds J P' x.
  Proof. destruct x; cbn; tauto. Qed.
  Lemma register_more r : more (in_register r) -> register_holds J B r -> register_holds J B' r.
  Proof.
    intros M (H1 & H2 & H3 & H4). repeat (split; [assumption|]). destruct (r_fields r) as [fs|] eqn:E; [|exact I]. cbn in *.
    apply Forall_forall. intros f If. rewrite Forall_forall in H4. eapply any_more; [|exact (H4 _ If)]. intros (K1 & K2 & K3).
    split; [|auto]. apply M; [|exact K1]. eapply ir_field; [exact E|exact If|constructor].
  Qed.
  Lemma rc_more rc : more (in_rc rc) -> rc_holds J B rc -> rc_holds J B' rc.
  Proof.
    induction rc as [r|c IH] using rc_tree_ind; intros M H; inversion H as [? G|? G K]; subst.
    - constructor. eapply any_more; [|exact G]. apply register_more. intros f If. apply M. now constructor.
    - constructor; [exact G|]. apply Forall_forall. intros rc Ir. rewrite Forall_forall in IH, K. apply IH; auto.
      intros f If. apply M. eapply ic_child; eassumption.
  Qed.
  Lemma device_more d : more (in_device d) -> device_holds J B d -> device_holds J B' d.
  Proof.
    intros M (H1 & H2 & H3 & H4 & H5). repeat (split; [assumption|]). apply Forall_forall. intros p Ip. rewrite Forall_forall in H5.
    eapply any_more; [|exact (H5 _ Ip)]. intros (K1 & K2 & K3 & K4 & K5). repeat (split; [assumption|]).
    destruct (p_registers (info p)) as [rs|] eqn:E; [|exact I]. cbn in *. apply Forall_forall. intros rc Ir. rewrite Forall_forall in K5.
    apply rc_more; [|auto]. intros f If. apply M. eapply id_peripheral; [exact Ip|]. eapply ip_child; eassumption.
  Qed.
End More.
(** What the parser makes of bit ranges. *)
Lemma parsed_size m n b : bit_range_parse m n = Ok b -> br_type b = BRT_OffsetWidth -> br_offset b < 2 ^ 32 /\ br_width b < 2 ^ 32.
Proof.
  intros H T. apply C05_only in H as [(h & E & _)|(_ & _ & _ & o & w & _ & _ & (? & _ & _ & O) & (? & _ & _ & X))]; [|auto].
  inversion E; congruence.
Qed.
Lemma ends_below n h l t : written_ends n h l t -> h < 2 ^ 32 /\ l < 2 ^ 32.
Proof. intros W. inversion W as [|? ? _ _ _ (? & _ & _ & A) (? & _ & _ & C)]; subst; split; assumption. Qed.
Lemma parsed_ranged m n b : bit_range_parse m n = Ok b -> bits_ranged b.
Proof.
  intros H. pose proof H as H'. apply C05_only in H as [(h & E & L & K)|(T & _ & _ & o & w & _ & _ & (? & _ & _ & O) & (? & _ & _ & X))]; [|split; assumption].
  destruct (ends_below _ _ _ _ E) as [A C]. split; [exact C|]. destruct K as [K|(_ & _ & _ & ->)]; [|reflexivity].
  destruct (N.eq_dec h 4294967295) as [->|N]; [|lia]. destruct (N.eq_dec (br_offset b) 0) as [Z|Z]; [|lia].
  rewrite Z in E. destruct (C05_full_range _ _ E) as [D R]. destruct m; [congruence|]. rewrite R in H'. injection H' as <-. reflexivity.
Qed.
Lemma parsed_checked n b : bit_range_parse Debug n = Ok b -> SpecSerde.bits_read b.
Proof.
  intros H. destruct (parsed_ranged _ _ _ H) as [A C]. split; [exact A|]. split; [exact C|]. intros T.
  apply C05_only in H as [(h & E & L & K)|(T' & _)]; [|congruence]. apply ends_below in E as [E _]. destruct K as [K|(K & _)]; [lia|discriminate].
Qed.
(** ** Expanded descriptions come back from the serde form as they are *)
Lemma b_field_flat f : flat_field f -> b_field f = f.
Proof. intros (i & -> & _). reflexivity. Qed.
Lemma map_same {A} (f : A -> A) (P : A -> Prop) l : Forall P l -> (forall a, P a -> f a = a) -> map f l = l.
Proof. induction 1; cbn; intros H'; [reflexivity|]. f_equal; auto. Qed.
Lemma b_child_flat rc : flat_child rc -> b_rc rc = rc.
Proof.
  intros (r & -> & i & -> & _ & F). cbn. f_equal. f_equal. destruct i as [? ? ? ? ? ? ? ? ? ? ? fs ?]. unfold b_register. cbn in *. f_equal.
  destruct fs as [fs|]; [|reflexivity]. cbn. f_equal. eapply map_same; [exact (F _ eq_refl)|exact b_field_flat].
Qed.
Lemma b_peripheral_flat p : flat_peripheral p -> b_any b_peripheral p = p.
Proof.
  intros (i & -> & _ & F). cbn. f_equal. destruct i as [? ? ? ? ? ? ? ? ? ? ? ? ? rs ?]. unfold b_peripheral. cbn in *. f_equal.
  destruct rs as [rs|]; [|reflexivity]. cbn. f_equal. eapply map_same; [exact (F _ eq_refl)|exact b_child_flat].
Qed.
Lemma b_device_flat e : flat_device e -> b_device e = with_header e.
Proof. intros F. unfold b_device, with_header. f_equal. eapply map_same; [exact F|exact b_peripheral_flat]. Qed.
