(** When the encoder succeeds, and what its configuration changes. *)
From Verif Require Import Base BaseFacts Num NumProofs Types Names Validate Builders Arrays Config Sort Xml Encode
  Parse SpecNum SpecArray ArrayProofs IndexProofs SpecText TrimProofs SpecXml XmlFacts BitProofs PropBits SpecValidate ValidateProofs
  SpecBuild BuilderProofs SpecParse ParseProofs TreeFacts SpecSort SortProofs PropSort SpecRound RoundProofs.
From Coq Require Import Permutation.

Section Total.
  Variables (m : mode) (conv : id_format -> string -> string) (cfg : config) (l : level).

  Lemma bits_total b : bits_fit (w_bits cfg b) -> exists ch, bit_range_encode m cfg b = Ok ch.
  Proof.
    intros (B1 & B2 & B3). cbn [w_bits br_offset br_width br_type] in *. unfold bit_range_encode, br_text.
    destruct (opt_default (br_type b) (cfg_field_bit_range cfg)); eauto;
      destruct B3 as [X Y]; try discriminate; rewrite br_msb_ok by assumption; cbn [bind]; eauto.
  Qed.
  Lemma range_total d : de_dim d < 2 ^ 32 -> opt_all (indexes_fit (de_dim d)) (de_index d) -> calm m d ->
    exists r, indexes_as_range m d = Ok r.
  Proof.
    intros B F C.
    assert (X : forall i, i < de_dim d -> exists s, index_text d i s).
    { intros i Hi. unfold index_text. destruct (de_index d) as [is|]; [|exists (to_string i); apply to_string_numeral].
      destruct F as (_ & L & _). destruct (nth_error is (N.to_nat i)) as [s|] eqn:E; [eauto|]. apply nth_error_None in E. lia. }
    destruct (indexes_as_range m d) as [r|e|p] eqn:E; [eauto| |].
    - exfalso. unfold indexes_as_range in E.
      destruct (canonical_loop_total d (upto (de_dim d))) as [Z|[vs Z]].
      { intros i Hi. apply in_upto in Hi. destruct (X i Hi) as [s S]. exists s. now apply index_at_text. }
      + rewrite Z in E. discriminate.
      + rewrite Z in E. cbn [bind] in E. destruct (list_min vs), (list_max vs); try discriminate.
        unfold sub32, sub_w in E. destruct (n <=? n0), m; cbn [bind] in E; try discriminate;
        unfold add32, add_w in E; destruct (_ <? _); cbn [bind] in E; try discriminate;
        destruct (negb _); try discriminate; destruct (zip_eq _ _ _); discriminate.
    - exfalso. apply indexes_as_range_panic in E as (M & _ & A & (i & Hi & I0) & (j & Hj & J0)); auto.
      unfold index_text in *. specialize (C M). destruct (de_index d) as [is|].
      + apply (C is eq_refl). split; eapply nth_error_In; eassumption.
      + apply numeral_to_string in J0. apply to_string_inj in J0. unfold u32_max in J0. change (2 ^ 32) with 4294967296 in B. unfold pow32 in *. lia.
  Qed.
  Lemma de_total d : dim_fits l (w_dim conv cfg d) -> calm m d -> exists e, de_encode m conv cfg d = Ok e.
  Proof.
    intros (F1 & F2 & F3 & _) C. cbn [w_dim de_dim de_index] in *. unfold de_encode. destruct (de_index d) as [is|] eqn:E; [|cbn; eauto].
    destruct (range_total d) as [r R]; auto; [now rewrite E|]. rewrite R. cbn [bind]. eauto.
  Qed.
  Lemma ma_total {A} t (name : A -> string) (enc : A -> res xml) g P x : any_fits l name P (w_any conv cfg g x) ->
    (P (g (info x)) -> exists e, enc (info x) = Ok e) -> (forall a d, x = Array a d -> calm m d) ->
    exists e, ma_encode m conv cfg t enc x = Ok e.
  Proof.
    destruct x as [a|a d]; cbn [w_any any_fits ma_encode info]; intros F H C; [now apply H|].
    destruct F as (F & D & _). destruct (de_total d D (C a d eq_refl)) as [e ->]. destruct (H F) as [e' ->]. cbn [bind]. eauto.
  Qed.
  Lemma mapM_total {A B} (f : A -> res B) xs : (forall a, In a xs -> exists b, f a = Ok b) -> exists bs, mapM f xs = Ok bs.
  Proof.
    induction xs as [|a xs IH]; intros H; cbn [mapM]; [eauto|]. destruct (H a (or_introl eq_refl)) as [b ->].
    destruct IH as [bs ->]; [intros; apply H; now right|]. cbn [bind]. eauto.
  Qed.
  Lemma field_total f : any_fits l f_name (field_fits l) (w_any conv cfg (w_field conv cfg) f) ->
    (forall a d, f = Array a d -> calm m d) -> exists e, field_encode m conv cfg f = Ok e.
  Proof.
    intros F C. eapply ma_total; [exact F| |exact C]. intros (_ & _ & B & _). unfold field_info_encode.
    destruct (bits_total _ B) as [ch ->]. cbn [bind]. eauto.
  Qed.
  Lemma register_total r fs : w_fields m conv cfg (info r) = Ok fs ->
    any_fits l r_name (register_fits l) (w_any conv cfg (fun i => w_register conv cfg i fs) r) ->
    (forall n d, array_in_rc (RCRegister r) n d -> calm m d) -> exists e, register_encode m conv cfg r = Ok e.
  Proof.
    intros W F C. eapply ma_total; [exact F| |intros a d ->; apply (C (r_name a)); constructor].
    intros (_ & _ & _ & _ & _ & _ & _ & _ & X & _). cbn [w_register r_fields] in X. unfold register_info_encode, w_fields in *.
    destruct (r_fields (info r)) as [v|] eqn:E; [|cbn; eauto]. apply bind_ok in W as (s & S & W). injection W as <-. rewrite S. cbn [bind].
    assert (T : exists ch, mapM (field_encode m conv cfg) s = Ok ch).
    { apply mapM_total. intros f I. apply field_total.
      - destruct s as [|f0 s]; [destruct I|]. cbn [tidy_list map opt_all] in X. destruct X as [_ X]. rewrite Forall_forall in X. apply X.
        now apply (in_map (w_any conv cfg (w_field conv cfg)) (f0 :: s)).
      - intros a d ->. apply (C (f_name a)). apply ac_in_register. apply ar_field with v; auto.
        destruct (C28_same_elements m) as (_ & P & _). apply P in S. eapply Permutation_in; [apply Permutation_sym; exact S|exact I]. }
    destruct T as [ch ->]. cbn [bind]. eauto.
  Qed.
  Lemma rc_total rc : forall rc', w_rc m conv cfg rc = Ok rc' -> rc_fits l rc' ->
    (forall n d, array_in_rc rc n d -> calm m d) -> exists e, rc_encode m conv cfg rc = Ok e.
  Proof.
    induction rc as [r|c IH] using rc_tree_ind; intros rc' W F C; cbn [w_rc rc_encode] in *.
    - apply bind_ok in W as (fs & Wf & W). injection W as <-. inversion F; subst. eapply register_total; eauto.
    - apply bind_ok in W as (rcs & Wk & W). injection W as <-. inversion F as [|c0 Fc Fk]; subst.
      assert (Fk' : Forall (rc_fits l) rcs) by (destruct c; exact Fk).
      eapply ma_total; [exact Fc| |intros a d ->; apply (C (c_name a)); constructor].
      intros _. unfold cluster_info_encode. destruct (mapM_total (rc_encode m conv cfg) (c_children (info c))) as [ch ->]; [|cbn [bind]; eauto].
      intros rc I. apply mapM_ok in Wk. destruct (Forall2_in_l _ _ _ Wk _ I) as (rc' & I' & E').
      rewrite Forall_forall in IH, Fk'. apply (IH rc I rc' E'); [now apply Fk'|].
      intros n d A. apply (C n). now apply ac_child with rc.
  Qed.
  Lemma peripheral_total p p' : w_peripheral_any m conv cfg p = Ok p' -> any_fits l p_name (peripheral_fits l) p' ->
    (forall a d, p = Array a d -> calm m d) -> (forall n d, array_in_peripheral (info p) n d -> calm m d) ->
    exists e, peripheral_encode m conv cfg p = Ok e.
  Proof.
    intros W F C1 C2. unfold w_peripheral_any in W. apply bind_ok in W as (rs & W & E). injection E as <-.
    eapply ma_total; [exact F| |exact C1].
    intros (_ & _ & _ & _ & _ & _ & _ & _ & _ & _ & _ & _ & _ & X & _). cbn [w_peripheral p_registers] in X.
    unfold peripheral_info_encode, w_registers in *.
    destruct (p_registers (info p)) as [v|] eqn:E; [|cbn; eauto]. apply bind_ok in W as (s & S & W). rewrite S. cbn [bind].
    apply bind_ok in W as (rcs & Wr & W). injection W as <-. cbn [opt_all] in X.
    destruct (mapM_total (rc_encode m conv cfg) s) as [ch ->]; [|cbn [bind]; eauto].
    intros rc I. apply mapM_ok in Wr. destruct (Forall2_in_l _ _ _ Wr _ I) as (rc' & I' & E').
    rewrite Forall_forall in X. apply (rc_total rc rc' E' (X _ I')). intros n d A. apply (C2 n). apply ap_child with v rc; auto.
    destruct (C28_same_elements m) as (_ & _ & P). apply P in S. eapply Permutation_in; [apply Permutation_sym; exact S|exact I].
  Qed.
  Lemma device_total d d' : w_device m conv cfg d = Ok d' -> device_fits l d' ->
    (forall n e, array_in_device d n e -> calm m e) -> exists n, device_encode m conv cfg d = Ok n.
  Proof.
    unfold w_device, device_encode. intros W F C. apply bind_ok in W as (s & S & W). rewrite S. cbn [bind].
    apply bind_ok in W as (ps & Wp & W). injection W as <-.
    destruct F as (_ & _ & _ & _ & _ & _ & _ & _ & _ & _ & _ & _ & _ & F & _). cbn [d_peripherals] in F.
    destruct (mapM_total (peripheral_encode m conv cfg) s) as [ch ->]; [|cbn [bind]; eauto].
    intros p I. assert (I0 : In p (d_peripherals d)).
    { destruct (C28_same_elements m) as (P & _ & _). apply P in S. eapply Permutation_in; [apply Permutation_sym; exact S|exact I]. }
    apply mapM_ok in Wp. destruct (Forall2_in_l _ _ _ Wp _ I) as (p' & I' & E').
    rewrite Forall_forall in F. apply (peripheral_total p p' E' (F _ I')).
    - intros a e ->. apply (C (p_name a)). now constructor.
    - intros n e A. apply (C n). now apply ad_child with p.
  Qed.
End Total.

(** What was written stands for some description. *)
Section Stands.
  Variables (m : mode) (conv : id_format -> string -> string) (cfg : config).
  Lemma ma_inv {A} t (enc : A -> res xml) x n : ma_encode m conv cfg t enc x = Ok n -> exists e, enc (info x) = Ok e.
  Proof. destruct x as [a|a d]; cbn; [eauto|]. intros H. apply bind_ok in H as (? & _ & H). apply bind_ok in H as (e & H & _). eauto. Qed.
  Lemma register_stands r e : register_info_encode m conv cfg r = Ok e -> exists fs, w_fields m conv cfg r = Ok fs.
  Proof.
    unfold register_info_encode, w_fields. intros H. destruct (r_fields r) as [v|]; [|eauto].
    apply bind_ok in H as (x & H & _). apply bind_ok in H as (s & -> & _). cbn [bind]. eauto.
  Qed.
  Lemma rc_stands rc : forall n, rc_encode m conv cfg rc = Ok n -> exists rc', w_rc m conv cfg rc = Ok rc'.
  Proof.
    induction rc as [r|c IH] using rc_tree_ind; intros n H; cbn [rc_encode w_rc] in *.
    - unfold register_encode in H. apply ma_inv in H as [e H]. apply register_stands in H as [fs ->]. cbn [bind]. eauto.
    - apply ma_inv in H as [e H]. unfold cluster_info_encode in H. apply bind_ok in H as (ks & K & _).
      destruct (mapM_total (w_rc m conv cfg) (c_children (info c))) as [l ->]; [|cbn [bind]; eauto].
      intros rc I. apply mapM_ok in K. destruct (Forall2_in_l _ _ _ K _ I) as (x & _ & E). rewrite Forall_forall in IH. eapply IH; eauto.
  Qed.
  Lemma device_stands d n : device_encode m conv cfg d = Ok n -> exists d', w_device m conv cfg d = Ok d'.
  Proof.
    unfold device_encode, w_device. intros H. apply bind_ok in H as (s & -> & H). cbn [bind]. apply bind_ok in H as (ks & K & _).
    destruct (mapM_total (w_peripheral_any m conv cfg) s) as [l ->]; [|cbn [bind]; eauto].
    intros p I. apply mapM_ok in K. destruct (Forall2_in_l _ _ _ K _ I) as (x & _ & E). unfold peripheral_encode in E. apply ma_inv in E as [e E].
    unfold peripheral_info_encode in E. unfold w_peripheral_any, w_registers. destruct (p_registers (info p)) as [v|]; [|cbn; eauto].
    apply bind_ok in E as (y & E & _). apply bind_ok in E as (t & -> & E). cbn [bind]. apply bind_ok in E as (ls & L & _).
    destruct (mapM_total (w_rc m conv cfg) t) as [ws ->]; [|cbn [bind]; eauto].
    intros rc J. apply mapM_ok in L. destruct (Forall2_in_l _ _ _ L _ J) as (z & _ & Z). eapply rc_stands; eauto.
  Qed.
End Stands.

Section Plain.
  Variables (m : mode) (conv : id_format -> string -> string) (cfg : config) (l : level).
  Hypothesis Hcases : no_cases cfg.

  Lemma cased_none s : cased conv None s = s. Proof. reflexivity. Qed.
  Lemma cased_opt (o : option string) : option_map (cased conv None) o = o. Proof. now destruct o. Qed.
  Lemma text_tidy o : text_opt o -> tidy_text o = o.
  Proof. destruct o as [[|c s]|]; auto. intros [X _]. now destruct X. Qed.
  Lemma map_same {A} (f : A -> A) (P : A -> Prop) xs : Forall P xs -> (forall a, P a -> f a = a) -> map f xs = xs.
  Proof. intros F H. rewrite <- (map_id xs) at 2. apply map_ext_Forall. eapply Forall_impl; [|exact F]. exact H. Qed.
  Ltac cases := destruct Hcases as (K1 & K2 & K3 & K4 & K5 & K6 & K7 & K8).
  Ltac plain := rewrite ?cased_none, ?cased_opt, ?text_tidy by assumption.

  Lemma value_same e : value_fits l e -> w_value conv cfg e = e.
  Proof. cases. intros (_ & F & _). unfold w_value. rewrite K7. plain. now destruct e. Qed.
  Lemma values_same e : values_fit l e -> w_values conv cfg e = e.
  Proof.
    cases. intros (F & V & _). unfold w_values. rewrite K6. plain.
    rewrite (map_same _ _ _ V value_same). now destruct e.
  Qed.
  Lemma dai_same d : dai_fits l d -> w_dai conv cfg d = d.
  Proof. cases. intros (F & V). unfold w_dai. rewrite K8. plain. rewrite (map_same _ _ _ V value_same). now destruct d. Qed.
  Lemma dim_same d : dim_fits l d -> w_dim conv cfg d = d.
  Proof.
    intros (_ & _ & _ & F & V). unfold w_dim. plain. destruct d as [? ? ? ? [a|]]; cbn in *; auto. now rewrite dai_same.
  Qed.
  Lemma interrupt_same i : interrupt_fits i -> w_interrupt conv cfg i = i.
  Proof. cases. intros (_ & F & _). unfold w_interrupt. rewrite K2. plain. now destruct i. Qed.
  Lemma any_same {A} (name : A -> string) P (f g : A -> A) x : any_fits l name P x -> (P (info x) -> f (info x) = g (info x)) ->
    w_any conv cfg f x = on_info g x.
  Proof. destruct x as [a|a d]; cbn; intros F H; [now rewrite H|]. destruct F as (F & D & _). now rewrite H, dim_same. Qed.
  Lemma any_fits_on {A} (name : A -> string) P (g : A -> A) x : any_fits l name P x -> (P (info x) -> P (g (info x))) ->
    name (g (info x)) = name (info x) -> any_fits l name P (on_info g x).
  Proof. destruct x as [a|a d]; cbn; intros F H E; [auto|]. rewrite E. intuition. Qed.

  Lemma field_same f : field_fits l (info f) -> any_fits l f_name (field_fits l) f -> w_any conv cfg (w_field conv cfg) f = field_as cfg f.
  Proof.
    intros _ F. unfold field_as. eapply any_same; [exact F|]. cases.
    intros (_ & D & _ & _ & V & _). unfold w_field, with_bits, w_bits, opt_default. rewrite K5. plain.
    rewrite (map_same _ _ _ V values_same). now destruct (cfg_field_bit_range cfg).
  Qed.
  Lemma any_info {A} (name : A -> string) P x : any_fits l name P x -> P (info x).
  Proof. destruct x; cbn; intuition. Qed.
  Lemma field_as_fits f : any_fits l f_name (field_fits l) f -> spans cfg (info f) -> any_fits l f_name (field_fits l) (field_as cfg f).
  Proof.
    intros F S. apply any_fits_on; auto. intros (F1 & F2 & (B1 & B2 & B3) & F4 & F5 & F6).
    split; [exact F1|]. split; [exact F2|]. split; [|split; [exact F4|split; [exact F5|exact F6]]].
    split; [exact B1|split; [exact B2|]]. cbn [with_bits f_bit_range br_type br_width br_offset].
    destruct (cfg_field_bit_range cfg) as [t|] eqn:E; [|exact B3]. intros T. exact (S t E T).
  Qed.
  Lemma arranged_fields v s : sort_fields m (cfg_field_sorting cfg) v = Ok s ->
    arranged (field_order (cfg_field_sorting cfg)) (reversed (cfg_field_sorting cfg)) (fun f => br_offset (f_bit_range (info f))) v s.
  Proof. intros S. split; [destruct (C28_same_elements m) as (_ & P & _); eauto|]. intros H. now apply (C28_fields m) in S. Qed.
  Lemma arranged_registers v s : sort_registers m (cfg_register_cluster_sorting cfg) v = Ok s ->
    arranged (registers_order (cfg_register_cluster_sorting cfg)) (rc_reversed (cfg_register_cluster_sorting cfg)) entry_offset v s.
  Proof. intros S. split; [destruct (C28_same_elements m) as (_ & _ & P); eauto|]. intros H. now apply (C28_registers m) in S. Qed.
  Lemma arranged_peripherals v s : sort_peripherals m (cfg_peripheral_sorting cfg) v = Ok s ->
    arranged (peripheral_order (cfg_peripheral_sorting cfg)) (reversed (cfg_peripheral_sorting cfg)) (fun p => p_base_address (info p)) v s.
  Proof. intros S. split; [destruct (C28_same_elements m) as (P & _ & _); eauto|]. intros H. now apply (C28_peripherals m) in S. Qed.

  Lemma fields_same r fs : register_fits l r -> (forall f, in_register r (EField f) -> spans cfg f) ->
    w_fields m conv cfg r = Ok fs ->
    fields_like cfg (r_fields r) fs /\ opt_all (fun fs => fs <> [] /\ Forall (any_fits l f_name (field_fits l)) fs) fs.
  Proof.
    intros (_ & _ & _ & _ & _ & _ & _ & _ & F & _) S W. unfold w_fields in W.
    destruct (r_fields r) as [v|] eqn:E; [|injection W as <-; split; [constructor|exact I]].
    apply bind_ok in W as (s & Ws & W). destruct F as [Fn F].
    pose proof (arranged_fields _ _ Ws) as A. destruct A as [P O].
    assert (Fs : Forall (any_fits l f_name (field_fits l)) s) by (rewrite Forall_forall in *; intros f I; apply F;
      eapply Permutation_in; [apply Permutation_sym; exact P|exact I]).
    assert (Z : map (w_any conv cfg (w_field conv cfg)) s = map (field_as cfg) s).
    { apply map_ext_Forall. eapply Forall_impl; [|exact Fs]. intros f X. apply field_same; auto. now apply any_info in X. }
    rewrite Z in W. destruct s as [|f0 s]; [apply Permutation_sym, Permutation_nil in P; subst; now destruct Fn|].
    cbn [tidy_list map] in W. injection W as <-. split; [apply (fl_some cfg v (f0 :: s)); split; assumption|].
    split; [discriminate|]. change (Forall (any_fits l f_name (field_fits l)) (map (field_as cfg) (f0 :: s))).
    rewrite Forall_forall in *. intros f I. apply in_map_iff in I as (g & <- & I). apply field_as_fits; [now apply Fs|].
    apply S. apply ir_field with v g; [exact E| |apply if_self]. eapply Permutation_in; [apply Permutation_sym; exact P|exact I].
  Qed.
  Lemma register_same r fs : register_fits l r -> w_register conv cfg r fs = with_fields r fs.
  Proof. cases. intros (_ & D1 & D2 & D3 & D4 & _). unfold w_register, with_fields. rewrite K4. now plain. Qed.
  Lemma with_fields_fits r fs : register_fits l r -> opt_all (fun fs => fs <> [] /\ Forall (any_fits l f_name (field_fits l)) fs) fs ->
    register_fits l (with_fields r fs).
  Proof.
    intros (F1 & F2 & F3 & F4 & F5 & F6 & F7 & F8 & F9 & F10) X. unfold register_fits. cbn [with_fields r_name r_display_name r_description
      r_alternate_group r_alternate_register r_address_offset r_properties r_write_constraint r_fields].
    conjs; auto. intros L. specialize (F10 L). destruct F10 as (A & B & C & D & E).
    conjs; auto. cbn [with_fields r_fields]. intros _ ->. now destruct X as [X _].
  Qed.
  Lemma rc_same rc : forall rc', rc_fits l rc -> (forall f, in_rc rc (EField f) -> spans cfg f) ->
    w_rc m conv cfg rc = Ok rc' -> rc_like cfg rc rc' /\ rc_fits l rc'.
  Proof.
    induction rc as [r|c IH] using rc_tree_ind; intros rc' F S W; cbn [w_rc] in W.
    - apply bind_ok in W as (fs & Wf & W). injection W as <-. inversion F as [r0 Fr|]; subst.
      destruct (fields_same (info r) fs) as [L X]; auto; [now apply any_info in Fr|intros f I; apply S; now constructor|].
      rewrite (any_same r_name (register_fits l) _ (fun i => with_fields i fs)) by (auto; intros; now apply register_same).
      split; [now constructor|]. constructor. apply any_fits_on; auto. intros; now apply with_fields_fits.
    - apply bind_ok in W as (rcs & Wk & W). injection W as <-. inversion F as [|c0 Fc Fk]; subst.
      assert (G : Forall2 (rc_like cfg) (c_children (info c)) rcs /\ Forall (rc_fits l) rcs).
      { apply mapM_ok in Wk.
        assert (S' : forall rc f, In rc (c_children (info c)) -> in_rc rc (EField f) -> spans cfg f).
        { intros rc f I X. apply S. now apply ic_child with rc. }
        clear Fc F S. revert Fk IH S'. induction Wk as [|a b xs ys E W IHW]; intros Fk IH S'; [split; constructor|].
        inversion Fk as [|? ? Fa Fks]; inversion IH as [|? ? IHa IHs]; subst. destruct (IHW Fks IHs) as [X Y]; [intros rc f I; apply S'; now right|].
        destruct (IHa b Fa) as [P Q]; [intros f I; apply (S' a f); [now left|exact I]|exact E|]. split; constructor; auto. }
      destruct G as [G1 G2].
      rewrite (any_same c_name (cluster_fits l) _ (fun i => with_children i rcs)); auto.
      + split; [now constructor|]. constructor; [|destruct c; exact G2]. apply any_fits_on; auto.
        intros (F1 & F2 & F3 & F4 & F5 & F6 & F7). unfold cluster_fits. cbn [with_children c_name c_description c_alternate_cluster
          c_header_struct_name c_address_offset c_default_properties]. conjs; auto.
        intros L. destruct (F7 L) as (A & B & C). conjs; auto. cbn [with_children c_derived_from c_children]. intros D ->. apply (C D).
        inversion G1. now destruct (c_children (info c)).
      + cases. intros (_ & D1 & D2 & D3 & _). unfold w_cluster, with_children. rewrite K3. now plain.
  Qed.
  Lemma registers_same p rs : opt_all (Forall (rc_fits l)) (p_registers p) -> (forall f, in_peripheral p (EField f) -> spans cfg f) ->
    w_registers m conv cfg p = Ok rs ->
    registers_like cfg (p_registers p) rs /\ opt_all (Forall (rc_fits l)) rs /\ (rs = Some [] -> p_registers p = Some []).
  Proof.
    intros F S W. unfold w_registers in W. destruct (p_registers p) as [v|] eqn:E; [|injection W as <-; conjs; [constructor|exact I|discriminate]].
    apply bind_ok in W as (s & Ws & W). apply bind_ok in W as (rcs & Wr & W). injection W as <-.
    pose proof (arranged_registers _ _ Ws) as A. pose proof A as [P _].
    assert (G : Forall2 (fun a b => rc_like cfg a b /\ rc_fits l b) s rcs).
    { apply mapM_ok in Wr. assert (I0 : forall a, In a s -> In a v) by (intros a I; eapply Permutation_in; [apply Permutation_sym; exact P|exact I]).
      clear A P Ws. induction Wr as [|a b xs ys Ea W IHW]; constructor.
      - apply rc_same; [cbn [opt_all] in F; rewrite Forall_forall in F; apply F, I0; now left| |exact Ea].
        intros f I. apply S. apply ip_child with v a; auto. apply I0. now left.
      - apply IHW. intros x I. apply I0. now right. }
    assert (G1 : Forall2 (rc_like cfg) s rcs) by (clear - G; induction G as [|? ? ? ? [? ?]]; constructor; auto).
    assert (G2 : Forall (rc_fits l) rcs) by (clear - G; induction G as [|? ? ? ? [? ?]]; constructor; auto).
    conjs; [now apply gl_some with s|exact G2|]. intros Z. injection Z as ->. inversion G1; subst.
    apply Permutation_sym, Permutation_nil in P. now subst.
  Qed.
  Lemma peripheral_same p p' : any_fits l p_name (peripheral_fits l) p -> (forall f, in_peripheral (info p) (EField f) -> spans cfg f) ->
    w_peripheral_any m conv cfg p = Ok p' -> peripheral_like cfg p p' /\ any_fits l p_name (peripheral_fits l) p'.
  Proof.
    intros F S W. unfold w_peripheral_any in W. apply bind_ok in W as (rs & W & E). injection E as <-.
    pose proof (any_info _ _ _ F) as (F1 & F2 & F3 & F4 & F5 & F6 & F7 & F8 & F9 & F10 & F11 & F12 & F13 & F14 & F15).
    destruct (registers_same (info p) rs F14 S W) as (L & X & Z).
    rewrite (any_same p_name (peripheral_fits l) _ (fun i => with_registers i rs)); auto.
    - split; [now constructor|]. apply any_fits_on; auto. intros _. unfold peripheral_fits. cbn [with_registers p_name p_display_name p_version
        p_description p_alternate_peripheral p_group_name p_prepend_to_name p_append_to_name p_header_struct_name p_base_address
        p_default_properties p_address_block p_interrupt p_registers]. conjs; auto.
      intros K. destruct (F15 K) as (A & B & C). conjs; auto. cbn [with_registers p_derived_from p_registers]. intros D R. apply (C D). now apply Z.
    - cases. intros _. unfold w_peripheral, with_registers. rewrite K1. plain. rewrite (map_same _ _ _ F13 interrupt_same).
      replace (tidy_list (p_address_block (info p))) with (p_address_block (info p)); [reflexivity|].
      destruct (p_address_block (info p)) as [[|b bs]|]; auto. now destruct F12 as [[] _].
  Qed.
  Theorem device_same d d' : device_fits l d -> (forall f, in_device d (EField f) -> spans cfg f) ->
    w_device m conv cfg d = Ok d' -> device_like cfg d d' /\ device_fits l d'.
  Proof.
    intros (F1 & F2 & F3 & F4 & F5 & F6 & F7 & F8 & F9 & F10 & F11 & F12 & F13 & F14 & F15) S W. unfold w_device in W.
    apply bind_ok in W as (s & Ws & W). apply bind_ok in W as (ps & Wp & W). injection W as <-.
    pose proof (arranged_peripherals _ _ Ws) as A. pose proof A as [P _].
    assert (G : Forall2 (fun a b => peripheral_like cfg a b /\ any_fits l p_name (peripheral_fits l) b) s ps).
    { apply mapM_ok in Wp. assert (I0 : forall a, In a s -> In a (d_peripherals d)) by (intros a I; eapply Permutation_in; [apply Permutation_sym; exact P|exact I]).
      clear A P Ws. induction Wp as [|a b xs ys Ea W IHW]; constructor.
      - apply peripheral_same; [rewrite Forall_forall in F14; apply F14, I0; now left| |exact Ea].
        intros f I. apply S. apply id_peripheral with a; auto. apply I0. now left.
      - apply IHW. intros x I. apply I0. now right. }
    assert (G1 : Forall2 (peripheral_like cfg) s ps) by (clear - G; induction G as [|? ? ? ? [? ?]]; constructor; auto).
    assert (G2 : Forall (any_fits l p_name (peripheral_fits l)) ps) by (clear - G; induction G as [|? ? ? ? [? ?]]; constructor; auto).
    split.
    - exists s, ps. conjs; auto. unfold with_peripherals. now plain.
    - plain. unfold device_fits. cbn [d_vendor d_vendor_id d_name d_series d_version d_description d_license_text d_cpu d_header_system_filename
        d_header_definitions_prefix d_address_unit_bits d_width d_default_properties d_peripherals]. conjs; auto.
      intros C. specialize (F15 C). cbn [d_peripherals]. intros ->. inversion G1; subst.
      apply Permutation_sym, Permutation_nil in P. congruence.
  Qed.

  (** In place nothing changes. *)
  Hypothesis Hplace : in_place cfg.
  Lemma field_as_id f : field_as cfg f = f.
  Proof.
    destruct Hplace as (_ & _ & _ & B). unfold field_as, with_bits. rewrite B. destruct f as [[] |[] ]; cbn; destruct f_bit_range; reflexivity.
  Qed.
  Lemma arranged_id {A} (o : list A -> list A -> Prop) P (f : A -> N) v s : (forall a b, o a b -> b = a) -> ~ P -> arranged o P f v s -> s = v.
  Proof. intros H N [_ X]. apply H, X. tauto. Qed.
  Lemma with_fields_id r : with_fields r (r_fields r) = r. Proof. now destruct r. Qed.
  Lemma with_children_id r : with_children r (c_children r) = r. Proof. now destruct r. Qed.
  Lemma with_registers_id r : with_registers r (p_registers r) = r. Proof. now destruct r. Qed.
  Lemma with_peripherals_id r : with_peripherals r (d_peripherals r) = r. Proof. now destruct r. Qed.
  Lemma fields_like_id a b : fields_like cfg a b -> b = a.
  Proof.
    destruct Hplace as (_ & _ & Q & _).
    destruct 1 as [|v s A]; auto. rewrite Q in A. apply arranged_id in A as ->; [|auto|intros [X|X]; discriminate]. f_equal.
    rewrite <- (map_id v) at 2. apply map_ext. exact field_as_id.
  Qed.
  Lemma rc_like_id rc : forall rc', rc_like cfg rc rc' -> rc' = rc.
  Proof.
    induction rc as [r|c IH] using rc_tree_ind; intros rc' X; inversion X as [r0 fs L|c0 ks L]; subst.
    - apply fields_like_id in L as ->. destruct r; cbn; now rewrite with_fields_id.
    - assert (ks = c_children (info c)) as ->.
      { clear X. induction L as [|a b xs ys E W IHW]; [reflexivity|]. inversion IH; subst. now rewrite (H1 b E), IHW. }
      destruct c; cbn; now rewrite with_children_id.
  Qed.
  Lemma forall2_id {A} (R : A -> A -> Prop) xs ys : (forall a b, R a b -> b = a) -> Forall2 R xs ys -> ys = xs.
  Proof. intros H. induction 1; f_equal; auto. Qed.
  Lemma registers_like_id a b : registers_like cfg a b -> b = a.
  Proof.
    destruct Hplace as (_ & Q & _). destruct 1 as [|v s k A K]; auto. rewrite Q in A.
    apply arranged_id in A as ->; [|auto|intros (dd & [X|X] & [Y|[Y|Y]]); congruence]. f_equal. eapply forall2_id; [exact rc_like_id|exact K].
  Qed.
  Theorem device_like_id d d' : device_like cfg d d' -> d' = d.
  Proof.
    intros (s & ps & A & K & ->). destruct Hplace as (Q & _). rewrite Q in A.
    apply arranged_id in A as ->; [|auto|intros [X|X]; discriminate].
    apply forall2_id in K as ->; [apply with_peripherals_id|].
    intros p p'. destruct 1 as [p rs L]. apply registers_like_id in L as ->. destruct p; cbn; now rewrite with_registers_id.
  Qed.
  Lemma w_fields_in_place r : exists fs, w_fields m conv cfg r = Ok fs.
  Proof. destruct Hplace as (_ & _ & Q & _). unfold w_fields. rewrite Q. destruct (r_fields r); cbn; eauto. Qed.
  Lemma w_rc_in_place rc : exists rc', w_rc m conv cfg rc = Ok rc'.
  Proof.
    induction rc as [r|c IH] using rc_tree_ind; cbn [w_rc].
    - destruct (w_fields_in_place (info r)) as [fs ->]. cbn; eauto.
    - destruct (mapM_total (w_rc m conv cfg) (c_children (info c))) as [ks ->]; [now rewrite Forall_forall in IH|cbn; eauto].
  Qed.
  Lemma w_device_in_place d : exists d', w_device m conv cfg d = Ok d'.
  Proof.
    destruct Hplace as (Q & R & _). unfold w_device. rewrite Q. cbn [sort_peripherals sort_derivable sort_items bind].
    destruct (mapM_total (w_peripheral_any m conv cfg) (d_peripherals d)) as [ps E].
    - intros p _. unfold w_peripheral_any, w_registers. rewrite R. destruct (p_registers (info p)) as [v|]; [|cbn; eauto].
      change (sort_registers m (RcUnchanged (Unchanged None)) v) with (Ok v). cbn [bind].
      destruct (mapM_total (w_rc m conv cfg) v) as [ks ->]; [intros; apply w_rc_in_place|cbn; eauto].
    - change (sort_peripherals m (Unchanged None) (d_peripherals d)) with (Ok (d_peripherals d)). cbn [bind]. rewrite E. cbn; eauto.
  Qed.
  Lemma in_place_spans f : spans cfg f.
  Proof. destruct Hplace as (_ & _ & _ & B). intros t E. congruence. Qed.
  Theorem w_device_id d : device_fits l d -> w_device m conv cfg d = Ok d.
  Proof.
    intros F. destruct (w_device_in_place d) as [d' E]. destruct (device_same d d' F (fun f _ => in_place_spans f) E) as [L _].
    apply device_like_id in L. congruence.
  Qed.
End Plain.
