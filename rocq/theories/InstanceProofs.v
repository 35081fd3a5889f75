(** Proofs about array instances: names, descriptions and positions. *)
From Verif Require Import BaseFacts Types Arrays NumProofs SpecNum SpecArray ArrayProofs IndexProofs.

(** ** Replacing placeholders *)
Fixpoint sdrop (k : nat) (s : string) : string :=
  match k, s with
  | O, _ => s
  | S k', String _ s' => sdrop k' s'
  | S _, EmptyString => EmptyString
  end.
Lemma replace_go_drop pat b s k : replace_go pat b s k = replace pat b (sdrop k s).
Proof.
  revert k; induction s as [|c s IH]; intros [|k]; try reflexivity.
  cbn [sdrop replace_go]. apply IH.
Qed.
Lemma sdrop_app a b : sdrop (String.length a) (a ++ b) = b.
Proof. induction a; [reflexivity|assumption]. Qed.
Lemma replace_hit p pat b t :
  replace (String p pat) b (String p pat ++ t)%string = (b ++ replace (String p pat) b t)%string.
Proof.
  unfold replace at 1. cbn [append replace_go].
  assert (H : starts_with (String p pat) (String p (pat ++ t)) = true) by (apply starts_with_spec; exists t; reflexivity).
  rewrite H. f_equal. rewrite replace_go_drop. cbn [String.length Nat.pred]. now rewrite sdrop_app.
Qed.
Lemma replace_skip pat b c s : starts_with pat (String c s) = false ->
  replace pat b (String c s) = String c (replace pat b s).
Proof. intros H. unfold replace at 1. cbn [replace_go]. now rewrite H. Qed.
Lemma starts_with_false p s : starts_with p s = false <-> forall t, s <> (p ++ t)%string.
Proof.
  split.
  - intros H t ->. assert (starts_with p (p ++ t) = true) by (apply starts_with_spec; eauto). congruence.
  - intros H. destruct (starts_with p s) eqn:E; [|reflexivity]. apply starts_with_spec in E as [t E]. now apply H in E.
Qed.
Lemma replace_free c pat b a s : free_of c a ->
  replace (String c pat) b (a ++ s)%string = (a ++ replace (String c pat) b s)%string.
Proof.
  induction a as [|x a IH]; intros H; [reflexivity|]. rewrite free_of_cons in H. destruct H as [Hx H].
  cbn [append]. rewrite replace_skip; [rewrite IH by assumption; reflexivity|].
  apply starts_with_false. intros t E. cbn in E. injection E as E _. congruence.
Qed.
Lemma subst_index_spec idx s : plain_template idx s -> substituted idx s (subst_index idx s).
Proof.
  unfold plain_template, subst_index. intros [Hidx Hs].
  remember (String.length s) as n eqn:Hn. revert s Hn Hs.
  induction n as [n IH] using lt_wf_ind; intros s -> Hs.
  destruct s as [|c s]; [constructor|].
  assert (Htail : forall p t, String c s = (p ++ t)%string -> forall a b, t <> (a ++ "%[%s]" ++ b)%string).
  { intros p t E a b ->. apply (Hs (p ++ a)%string b). now rewrite E, sapp_assoc. }
  destruct (starts_with "[%s]" (String c s)) eqn:E1.
  { apply starts_with_spec in E1 as [t E1]. rewrite E1. rewrite replace_hit. rewrite replace_free by assumption.
    constructor. apply (IH (String.length t)); auto.
    - rewrite E1, sapp_length. cbn. lia.
    - eapply Htail; eassumption. }
  destruct (starts_with "%s" (String c s)) eqn:E2.
  { apply starts_with_spec in E2 as [t E2]. rewrite E2 at 1. rewrite E2.
    assert (H1 : replace "[%s]" idx ("%s" ++ t)%string = ("%s" ++ replace "[%s]" idx t)%string).
    { reflexivity. }
    rewrite H1, replace_hit. constructor. apply (IH (String.length t)); auto.
    - rewrite E2, sapp_length. cbn. lia.
    - eapply Htail; eassumption. }
  rewrite replace_skip by assumption.
  assert (E3 : starts_with "%s" (String c (replace "[%s]" idx s)) = false).
  { apply starts_with_false. intros t E. cbn in E. injection E as -> E.
    destruct s as [|b s]; [discriminate E|].
    destruct (starts_with "[%s]" (String b s)) eqn:E4.
    - apply starts_with_spec in E4 as [u E4]. apply (Hs "" u). cbn. cbn in E4. now rewrite E4.
    - rewrite replace_skip in E by assumption. injection E as -> _.
      apply starts_with_false with (t := s) in E2. now apply E2. }
  rewrite replace_skip by assumption.
  constructor; [now apply starts_with_false..|].
  apply (IH (String.length s)); auto. apply (Htail (String c "")). reflexivity.
Qed.

Lemma substituted_unique idx s r r' : substituted idx s r -> substituted idx s r' -> r = r'.
Proof.
  intros H; revert r'; induction H as [|s r H IH|s r H IH|c s r H1 H2 H IH]; intros r' H'.
  - inversion H'; reflexivity.
  - remember ("[%s]" ++ s)%string as w eqn:E. destruct H' as [|s' q H'|s' q H'|c s' q K1 K2 H']; try discriminate E.
    + apply sapp_cancel_l in E as ->. f_equal. auto.
    + exfalso. now apply (K1 s).
  - remember ("%s" ++ s)%string as w eqn:E. destruct H' as [|s' q H'|s' q H'|c s' q K1 K2 H']; try discriminate E.
    + apply sapp_cancel_l in E as ->. f_equal. auto.
    + exfalso. now apply (K2 s).
  - remember (String c s) as w eqn:E. destruct H' as [|s' q H'|s' q H'|c' s' q K1 K2 H']; try discriminate E.
    + exfalso. now apply (H1 s').
    + exfalso. now apply (H2 s').
    + injection E as -> ->. f_equal. auto.
Qed.

Lemma replace_replaced p pat b s : replaced (String p pat) b s (replace (String p pat) b s).
Proof.
  remember (String.length s) as n eqn:Hn. revert s Hn. induction n as [n IH] using lt_wf_ind; intros s ->.
  destruct s as [|c s]; [constructor|]. destruct (starts_with (String p pat) (String c s)) eqn:E.
  - apply starts_with_spec in E as [t E]. rewrite E, replace_hit. constructor. apply (IH (String.length t)); auto.
    rewrite E, sapp_length. cbn. lia.
  - rewrite replace_skip by assumption. constructor; [now apply starts_with_false|]. apply (IH (String.length s)); auto.
Qed.
Lemma replaced_unique pat b s r r' : pat <> EmptyString -> replaced pat b s r -> replaced pat b s r' -> r = r'.
Proof.
  intros N H; revert r'; induction H as [|s r H IH|c s r H1 H IH]; intros r' H'.
  - remember EmptyString as w eqn:E in H'. destruct H' as [|s q H'|c s q K H']; try discriminate E; [reflexivity|].
    destruct pat; [congruence|discriminate E].
  - remember (pat ++ s)%string as w eqn:E. destruct H' as [|s' q H'|c s' q K H'].
    + destruct pat; [congruence|discriminate E].
    + apply sapp_cancel_l in E as ->. f_equal. auto.
    + exfalso. now apply (K s).
  - remember (String c s) as w eqn:E. destruct H' as [|s' q H'|c' s' q K H']; try discriminate E.
    + exfalso. now apply (H1 s').
    + injection E as -> ->. f_equal. auto.
Qed.
Lemma subst_filled idx s : filled idx s (subst_index idx s).
Proof. exists (replace "[%s]" idx s). split; apply replace_replaced. Qed.
Lemma filled_unique idx s r r' : filled idx s r -> filled idx s r' -> r = r'.
Proof.
  intros (u & H1 & H2) (u' & K1 & K2). assert (u = u') as <- by (eapply replaced_unique; [|exact H1|exact K1]; discriminate).
  eapply replaced_unique; [|exact H2|exact K2]; discriminate.
Qed.
Lemma filled_plain idx s r : plain_template idx s -> (filled idx s r <-> substituted idx s r).
Proof.
  intros P. pose proof (subst_index_spec idx s P) as S. pose proof (subst_filled idx s) as F. split; intros H.
  - now rewrite (filled_unique _ _ _ _ H F).
  - now rewrite (substituted_unique _ _ _ _ H S).
Qed.

(** ** dimArrayIndex *)
Lemma dai_find_some d idx e : dai_find d idx = Some e <-> entry_for d idx e.
Proof.
  unfold dai_find, entry_for. destruct (de_array_index d) as [dai|].
  2: { split; [discriminate|]. intros (? & _ & _ & _ & H & _). discriminate. }
  rewrite find_first_some. split.
  - intros (l1 & l2 & E & He & F). exists dai, l1, l2.
    destruct (ev_value e) as [v|] eqn:Ev; [|discriminate]. exists v.
    apply seqb_eq in He. do 3 (split; [auto|]). split.
    + rewrite <- He. apply to_string_numeral.
    + eapply Forall_impl; [|exact F]. intros x Hx v' Ev' Hn. cbn in Hx. rewrite Ev' in Hx.
      apply numeral_to_string in Hn. apply seqb_neq in Hx. congruence.
  - intros (dai' & l1 & l2 & v & [= <-] & E & Ev & Hn & F). exists l1, l2.
    split; [assumption|]. rewrite Ev. split; [apply seqb_eq; apply numeral_to_string in Hn; auto|].
    eapply Forall_impl; [|exact F]. intros x Hx. cbn in Hx |- *. destruct (ev_value x) as [v'|]; [|reflexivity].
    apply seqb_neq. intros <-. now apply (Hx v'), to_string_numeral.
Qed.
Lemma dai_find_none d idx : dai_find d idx = None <-> no_entry d idx.
Proof.
  unfold no_entry. split.
  - intros H e He. apply dai_find_some in He. congruence.
  - intros H. destruct (dai_find d idx) as [e|] eqn:E; [|reflexivity]. now apply dai_find_some, H in E.
Qed.

Lemma instance_name_spec d t idx : name_of_instance d t idx (instance_name d t idx).
Proof.
  unfold name_of_instance, instance_name. destruct (dai_find d idx) as [e|] eqn:E.
  - left. apply dai_find_some in E. eauto.
  - right. apply dai_find_none in E. split; [assumption|]. apply subst_filled.
Qed.
Lemma entry_unique d idx e e' : entry_for d idx e -> entry_for d idx e' -> e = e'.
Proof. rewrite <- !dai_find_some. congruence. Qed.
Lemma instance_description_spec d t idx : description_of_instance d t idx (instance_description d t idx).
Proof.
  unfold description_of_instance, instance_description. destruct (dai_find d idx) as [e|] eqn:E.
  - destruct (ev_description e) as [u|] eqn:U; cbn [opt_or].
    + left. apply dai_find_some in E. eauto.
    + right. apply dai_find_some in E. split.
      * intros e' E'. now rewrite (entry_unique d idx e' e E' E).
      * destruct t as [t|]; cbn [option_map]; [|reflexivity]. eexists; split; [reflexivity|]. apply subst_filled.
  - right. apply dai_find_none in E. split; [intros e' E'; now apply E in E'|].
    cbn [opt_or]. destruct t as [t|]; cbn [option_map]; [|reflexivity].
    eexists; split; [reflexivity|]. apply subst_filled.
Qed.

(** ** Lists of instances *)
Lemma mapM_upto {A} (f : N -> res A) n l : mapM f (upto n) = Ok l <->
  len_N l = n /\ forall i, i < n -> exists x, nth_N l i = Some x /\ f i = Ok x.
Proof.
  rewrite mapM_ok, forall2_nth, upto_length. unfold len_N, nth_N. split.
  - intros [HL H]. split; [lia|]. intros i Hi.
    destruct (nth_error l (N.to_nat i)) as [x|] eqn:E.
    + exists x. split; [reflexivity|]. apply (H (N.to_nat i)); [|assumption]. rewrite upto_nth by lia. now rewrite N2Nat.id.
    + apply nth_error_None in E. lia.
  - intros [HL H]. split; [lia|]. intros i a b Ha Hb.
    assert (Hi : (i < N.to_nat n)%nat) by (rewrite <- upto_length; apply nth_error_Some; congruence).
    rewrite upto_nth in Ha by assumption. injection Ha as <-.
    destruct (H (N.of_nat i)) as (x & Hx & Hf); [lia|]. rewrite Nat2N.id in Hx. congruence.
Qed.

(** When every step is Ok or a panic, the loop panics iff some step does. *)
Lemma mapM_panic_or_ok {A B} (f : A -> res B) l :
  (forall a, In a l -> forall e, f a <> Err e) ->
  (exists l', mapM f l = Ok l') \/ (exists p, mapM f l = Panic p).
Proof.
  induction l as [|a l IH]; intros H; cbn [mapM]; [eauto|].
  destruct (f a) as [b|e|p] eqn:E; cbn [bind].
  - destruct IH as [[l' ->]|[p ->]]; [intros; apply H; now right|left; eexists; reflexivity|right; eexists; reflexivity].
  - exfalso. now apply (H a (or_introl eq_refl) e).
  - right. eauto.
Qed.

Lemma names_spec d t l : names d t = Ok l <->
  len_N l = de_dim d /\ forall i, i < de_dim d -> exists idx, index_text d i idx /\ nth_N l i = Some (instance_name d t idx).
Proof.
  unfold names. rewrite mapM_upto. split; intros [HL H]; (split; [assumption|]); intros i Hi; specialize (H i Hi).
  - destruct H as (x & Hx & Hf). apply bind_ok in Hf as (idx & Hi1 & Hi2). injection Hi2 as <-.
    exists idx. split; [now apply index_at_text|assumption].
  - destruct H as (idx & Ht & Hn). apply index_at_text in Ht. eexists. split; [exact Hn|]. now rewrite Ht.
Qed.
Lemma descriptions_spec d t l : descriptions d t = Ok l <->
  len_N l = de_dim d /\ forall i, i < de_dim d -> exists idx, index_text d i idx /\ nth_N l i = Some (instance_description d t idx).
Proof.
  unfold descriptions. rewrite mapM_upto. split; intros [HL H]; (split; [assumption|]); intros i Hi; specialize (H i Hi).
  - destruct H as (x & Hx & Hf). apply bind_ok in Hf as (idx & Hi1 & Hi2). injection Hi2 as <-.
    exists idx. split; [now apply index_at_text|assumption].
  - destruct H as (idx & Ht & Hn). apply index_at_text in Ht. eexists. split; [exact Hn|]. now rewrite Ht.
Qed.

(** ** Positions *)
Lemma mul_w_mod bound m a b r : mul_w bound m a b = Ok r -> r = (a * b) mod bound.
Proof.
  unfold mul_w. destruct (N.ltb_spec (a * b) bound); [intros [= <-]; now rewrite N.mod_small|].
  destruct m; [discriminate|]. congruence.
Qed.
Lemma add_w_mod bound m a b r : add_w bound m a b = Ok r -> r = (a + b) mod bound.
Proof.
  unfold add_w. destruct (N.ltb_spec (a + b) bound); [intros [= <-]; now rewrite N.mod_small|].
  destruct m; [discriminate|]. congruence.
Qed.
Definition at_w (bound : N) (m : mode) (base incr i : N) : res N :=
  let* x := mul_w bound m i incr in add_w bound m base x.
Lemma at_w_mod bound m base incr i r : bound <> 0 ->
  at_w bound m base incr i = Ok r -> r = (base + i * incr) mod bound.
Proof.
  intros Hb H. apply bind_ok in H as (x & Hx & H). apply mul_w_mod in Hx. apply add_w_mod in H. subst.
  now rewrite N.add_mod_idemp_r.
Qed.
Lemma at_w_debug bound base incr i r :
  at_w bound Debug base incr i = Ok r <-> base + i * incr < bound /\ r = base + i * incr.
Proof.
  unfold at_w. split.
  - intros H. apply bind_ok in H as (x & Hx & H). apply mul_w_debug in Hx as [? ->]. now apply add_w_debug in H.
  - intros [H ->]. rewrite mul_w_ok by lia. cbn [bind]. now rewrite add_w_ok.
Qed.
Lemma at_w_release bound base incr i : exists r, at_w bound Release base incr i = Ok r.
Proof.
  unfold at_w, mul_w, add_w. destruct (_ <? _); cbn [bind]; destruct (_ <? _); eauto.
Qed.
Lemma at_w_no_err bound m base incr i e : at_w bound m base incr i <> Err e.
Proof.
  unfold at_w, mul_w, add_w. destruct m, (i * incr <? bound); cbn [bind]; try discriminate;
  destruct (_ <? _); discriminate.
Qed.
Lemma offset_at_w m base d i : offset_at m base d i = at_w pow32 m base (de_increment d) i.
Proof. reflexivity. Qed.
Lemma base_at_w m base d i : base_at m base d i = at_w pow64 m base (de_increment d) i.
Proof. reflexivity. Qed.

(** ** A generic instance loop: index text, then position, then a constructor *)
Section Expand.
  Context {A : Type}.
  Variables (bound : N) (d : dim_element) (base : N) (mk : string -> N -> A).
  Definition instances (m : mode) : res (list A) :=
    mapM (fun i => let* idx := index_at d i in
                   let* off := at_w bound m base (de_increment d) i in Ok (mk idx off)) (upto (de_dim d)).
  Lemma instances_spec m l : bound <> 0 -> instances m = Ok l ->
    len_N l = de_dim d /\ forall i, i < de_dim d ->
      exists idx off, index_text d i idx /\ progression bound base (de_increment d) i off /\
        (m = Debug -> off = base + i * de_increment d) /\ nth_N l i = Some (mk idx off).
  Proof.
    unfold instances. intros Hb H. apply mapM_upto in H as [HL H]. split; [assumption|]. intros i Hi.
    destruct (H i Hi) as (x & Hx & Hf). apply bind_ok in Hf as (idx & Hidx & Hf).
    apply bind_ok in Hf as (off & Hoff & Hf). injection Hf as <-. exists idx, off.
    split; [now apply index_at_text|]. split; [now apply at_w_mod in Hoff|]. split; [|assumption].
    intros ->. apply at_w_debug in Hoff. tauto.
  Qed.
  Lemma instances_ok m : (exists l, instances m = Ok l) <->
    (forall i, i < de_dim d -> exists idx, index_text d i idx) /\
    (m = Debug -> forall i, i < de_dim d -> base + i * de_increment d < bound).
  Proof.
    split.
    - intros [l H]. apply mapM_upto in H as [HL H]. split.
      + intros i Hi. destruct (H i Hi) as (x & _ & Hf). apply bind_ok in Hf as (idx & Hidx & _).
        exists idx. now apply index_at_text.
      + intros -> i Hi. destruct (H i Hi) as (x & _ & Hf). apply bind_ok in Hf as (idx & Hidx & Hf).
        apply bind_ok in Hf as (off & Hoff & _). apply at_w_debug in Hoff. tauto.
    - intros [H1 H2]. unfold instances.
      assert (K : forall i, In i (upto (de_dim d)) -> exists x,
        (let* idx := index_at d i in let* off := at_w bound m base (de_increment d) i in Ok (mk idx off)) = Ok x).
      { intros i Hi. apply in_upto in Hi. destruct (H1 i Hi) as [idx Hidx]. apply index_at_text in Hidx.
        rewrite Hidx. cbn [bind]. destruct m.
        - rewrite (proj2 (at_w_debug bound base (de_increment d) i _)) by (split; [auto|reflexivity]). cbn [bind]. eauto.
        - destruct (at_w_release bound base (de_increment d) i) as [r ->]. cbn [bind]. eauto. }
      clear H1 H2. induction (upto (de_dim d)) as [|i is IH]; [exists []; reflexivity|].
      cbn [mapM]. destruct (K i (or_introl eq_refl)) as [x ->]. cbn [bind].
      destruct IH as [l ->]; [intros j Hj; apply K; now right|]. cbn [bind]. eauto.
  Qed.
  Lemma instances_panic m : (exists p, instances m = Panic p) <-> ~ exists l, instances m = Ok l.
  Proof.
    destruct (mapM_panic_or_ok (fun i => let* idx := index_at d i in
      let* off := at_w bound m base (de_increment d) i in Ok (mk idx off)) (upto (de_dim d))) as [[l H]|[p H]].
    - intros i _ e. unfold index_at. destruct (de_index d) as [l|]; cbn [bind]; [|intros H].
      + unfold index_N. destruct (nth_N l i); cbn [bind]; [intros H|discriminate].
        destruct (at_w _ _ _ _ _) eqn:E; try discriminate. now apply at_w_no_err in E.
      + destruct (at_w _ _ _ _ _) eqn:E; try discriminate. now apply at_w_no_err in E.
    - unfold instances. rewrite H. split; [intros [p K]; discriminate|intros K; exfalso; eauto].
    - unfold instances. rewrite H. split; [intros _ [l K]; discriminate|eauto].
  Qed.
End Expand.

Definition field_mk (f : field_info) (d : dim_element) (idx : string) (off : N) : field_info :=
  {| f_name := instance_name d (f_name f) idx;
     f_description := instance_description d (f_description f) idx;
     f_bit_range := br_from_offset_width off (br_width (f_bit_range f));
     f_access := f_access f; f_mwv := f_mwv f; f_write_constraint := f_write_constraint f;
     f_read_action := f_read_action f; f_enumerated_values := f_enumerated_values f;
     f_derived_from := f_derived_from f |}.
Lemma field_expand_instances m f d :
  field_expand m f d = instances pow32 d (br_offset (f_bit_range f)) (field_mk f d) m.
Proof. reflexivity. Qed.
Definition register_mk (r : register_info) (d : dim_element) (idx : string) (off : N) : register_info :=
  {| r_name := instance_name d (r_name r) idx;
     r_display_name := option_map (subst_index idx) (r_display_name r);
     r_description := instance_description d (r_description r) idx;
     r_alternate_group := r_alternate_group r; r_alternate_register := r_alternate_register r;
     r_address_offset := off; r_properties := r_properties r; r_datatype := r_datatype r;
     r_mwv := r_mwv r; r_write_constraint := r_write_constraint r; r_read_action := r_read_action r;
     r_fields := r_fields r; r_derived_from := r_derived_from r |}.
Lemma register_expand_instances m r d :
  register_expand m r d = instances pow32 d (r_address_offset r) (register_mk r d) m.
Proof. reflexivity. Qed.
Definition cluster_mk (c : cluster_info) (d : dim_element) (idx : string) (off : N) : cluster_info :=
  {| c_name := instance_name d (c_name c) idx;
     c_description := instance_description d (c_description c) idx;
     c_alternate_cluster := c_alternate_cluster c; c_header_struct_name := c_header_struct_name c;
     c_address_offset := off; c_default_properties := c_default_properties c;
     c_children := c_children c; c_derived_from := c_derived_from c |}.
Lemma cluster_expand_instances m c d :
  cluster_expand m c d = instances pow32 d (c_address_offset c) (cluster_mk c d) m.
Proof. reflexivity. Qed.
Definition peripheral_mk (p : peripheral_info) (d : dim_element) (idx : string) (addr : N) : peripheral_info :=
  {| p_name := instance_name d (p_name p) idx;
     p_display_name := option_map (subst_index idx) (p_display_name p);
     p_version := p_version p;
     p_description := instance_description d (p_description p) idx;
     p_alternate_peripheral := p_alternate_peripheral p; p_group_name := p_group_name p;
     p_prepend_to_name := p_prepend_to_name p; p_append_to_name := p_append_to_name p;
     p_header_struct_name := p_header_struct_name p; p_base_address := addr;
     p_default_properties := p_default_properties p; p_address_block := p_address_block p;
     p_interrupt := p_interrupt p; p_registers := p_registers p; p_derived_from := p_derived_from p |}.
Lemma peripheral_expand_instances m p d :
  peripheral_expand m p d = instances pow64 d (p_base_address p) (peripheral_mk p d) m.
Proof. reflexivity. Qed.

Lemma names_total d t : (exists l, names d t = Ok l) <-> (forall i, i < de_dim d -> exists idx, index_text d i idx).
Proof.
  split.
  - intros [l H] i Hi. apply names_spec in H as [_ H]. destruct (H i Hi) as (idx & Ht & _). eauto.
  - intros H. unfold names.
    assert (K : forall i, In i (upto (de_dim d)) -> exists idx, index_at d i = Ok idx).
    { intros i Hi. apply in_upto in Hi. destruct (H i Hi) as [idx Hidx]. exists idx. now apply index_at_text. }
    clear H. induction (upto (de_dim d)) as [|i is IH]; [exists []; reflexivity|].
    cbn [mapM]. destruct (K i (or_introl eq_refl)) as [x ->]. cbn [bind].
    destruct IH as [l ->]; [intros j Hj; apply K; now right|]. cbn [bind]. eauto.
Qed.
