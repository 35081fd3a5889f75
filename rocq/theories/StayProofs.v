(** Validity of expanded devices. *)
From Verif Require Import Base BaseFacts Types TreeFacts Derive Validate Arrays Expand SpecDerive SpecArray SpecValidate SpecExpand SpecParse SpecCause ExpandProofs CauseProofs.

Section Stay.
  Variable l : level.
  Hypothesis NS : l <> Strict.
  Variables (m : mode) (ix : index).
  Notation post r Q := (wp (fun _ => True) (fun _ => True) r Q).
  Notation ok x := (element_ok l x).

  Definition field_stays (f : field) : Prop := forall x, in_field (info f) x -> ok x.
  Definition register_stays (r : register) : Prop := forall x, in_register (info r) x -> ok x.
  Definition child_stays (rc : register_cluster) : Prop := exists r, rc = RCRegister r /\ register_stays r.
  Definition peripheral_stays (p : peripheral) : Prop := forall x, in_peripheral (info p) x -> ok x.

  Lemma field_same (f g : field_info) : f_bit_range f = f_bit_range g \/ br_width (f_bit_range f) = br_width (f_bit_range g) ->
    f_enumerated_values f = f_enumerated_values g -> f_write_constraint f = f_write_constraint g ->
    (forall x, in_field f x -> ok x) -> forall x, in_field g x -> ok x.
  Proof using NS.
    intros B V W H x Hx. destruct Hx as [|es x I1 I2].
    - assert (Bw : br_width (f_bit_range f) = br_width (f_bit_range g)) by (destruct B; congruence).
      pose proof (H _ (if_self f)) as K. cbn [element_ok] in *. unfold field_ok in *. cbv zeta in *.
      rewrite Bw, V, W in K. destruct K as (K1 & K2 & K3 & _). conjs; auto. contradiction.
    - rewrite <- V in I1. apply H. eapply if_values; eassumption.
  Qed.
  Lemma mapM_id {A} (f : A -> res A) xs : (forall a, In a xs -> f a = Ok a) -> mapM f xs = Ok xs.
  Proof.
    induction xs as [|a xs IH]; intros H; cbn [mapM]; [reflexivity|]. rewrite H by now left. cbn [bind].
    rewrite IH by (intros; apply H; now right). reflexivity.
  Qed.
  Lemma post_mapM {A B} (f : A -> res B) (Q : B -> Prop) xs : (forall a, In a xs -> post (f a) Q) -> post (mapM f xs) (Forall Q).
  Proof. apply wp_mapM. Qed.

  Definition plain_field (f : field) : Prop :=
    f_derived_from (info f) = None /\ Forall (fun e => evs_derived_from e = None) (f_enumerated_values (info f)).
  Definition plain_register (r : register) : Prop :=
    r_derived_from (info r) = None /\ Forall plain_field (or_empty (r_fields (info r))).

  Lemma expand_field_stays fuel rp f : plain_field f -> field_stays f ->
    post (expand_field m ix fuel rp f) (Forall field_stays).
  Proof using NS.
    intros [D V] S. unfold expand_field. rewrite D. cbn [bind fst snd]. cbv zeta.
    rewrite mapM_id. 2:{ rewrite Forall_forall in V. intros e Ie. unfold expand_enum. now rewrite (V e Ie). }
    cbn [bind]. destruct f as [i|i e]; cbn [ma_map info] in *.
    - repeat constructor. unfold field_stays. cbn [info]. eapply field_same; [left|..|exact S]; reflexivity.
    - apply wp_bind. eapply wp_weak; [apply (wp_mapM _ _ _ (fun i' => field_stays (Single i')))|].
      + intros j _. unfold field_instance. destruct (index_at e j); cbn; auto. destruct (offset_at _ _ _ _); cbn; auto.
        unfold field_stays. cbn [info]. eapply field_same; [right|..|exact S]; reflexivity.
      + intros fs H. apply Forall_forall. intros x Ix. apply in_map_iff in Ix. destruct Ix as (y & <- & Iy).
        rewrite Forall_forall in H. apply H, Iy.
  Qed.
  Lemma register_same (r g : register_info) : r_properties r = r_properties g ->
    (forall x, in_register r x -> ok x) -> (forall fs, r_fields g = Some fs -> Forall field_stays fs) ->
    forall x, in_register g x -> ok x.
  Proof using NS.
    intros P H F x Hx. destruct Hx as [| |fs f x E I1 I2].
    - cbn [element_ok]. intros ->. contradiction.
    - rewrite <- P. apply H, ir_props.
    - specialize (F fs E). rewrite Forall_forall in F. exact (F f I1 x I2).
  Qed.
  Lemma expand_register_stays fuel b r : plain_register r -> register_stays r ->
    post (expand_register_array m ix fuel b r) (Forall child_stays).
  Proof using NS.
    intros [D V] S. unfold expand_register_array. rewrite D. cbn [bind fst snd]. cbv zeta. apply wp_bind.
    apply wp_weak with (Q := fun r' => dims r' = dims r /\ r_properties (info r') = r_properties (info r) /\
      (forall fs, r_fields (info r') = Some fs -> Forall field_stays fs)).
    { destruct (r_fields (info r)) as [fs|] eqn:Ef; [|cbn; rewrite Ef; conjs; auto; discriminate].
      cbn [or_empty] in V. apply wp_bind. eapply wp_weak; [apply (wp_concatM _ _ _ field_stays)|].
      - intros f If. apply expand_field_stays; [rewrite Forall_forall in V; auto|].
        intros x Hx. apply S. eapply ir_field; eassumption.
      - intros fs' H. cbn [wp]. rewrite dims_map, info_map. conjs; auto. cbn. intros ? [= <-]. exact H. }
    intros r' (Dm & P & F). destruct r' as [i|i e]; cbn [info] in *.
    - repeat constructor. exists (Single i). split; [reflexivity|].
      intros x Hx. eapply (register_same (info r)); [symmetry; exact P|exact S|exact F|exact Hx].
    - apply wp_bind. eapply wp_weak; [apply (wp_mapM _ _ _ (fun i' => register_stays (Single i')))|].
      + intros j _. unfold register_instance. destruct (index_at e j); cbn; auto. destruct (offset_at _ _ _ _); cbn; auto.
        intros x Hx. eapply (register_same (info r)); [|exact S| |exact Hx]; [symmetry; exact P|exact F].
      + intros fs H. apply Forall_forall. intros x Ix. apply in_map_iff in Ix. destruct Ix as (y & <- & Iy).
        rewrite Forall_forall in H. exists (Single y). split; [reflexivity|]. apply H, Iy.
  Qed.
  Lemma expand_cluster_stays c : Forall child_stays (c_children c) -> post (expand_cluster m c) (Forall child_stays).
  Proof using NS.
    intros F. rewrite Forall_forall in F. apply wp_mapM. intros rc Ic. destruct (F rc Ic) as (r & -> & S).
    apply wp_bind. destruct (add32 _ _ _); cbn; auto. eexists. split; [reflexivity|].
    intros x Hx. rewrite info_map in Hx. eapply (register_same (info r)); [|exact S| |exact Hx]; [reflexivity|].
    cbn. intros fs Ef. apply Forall_forall. intros f If y Hy. apply S. eapply ir_field; eassumption.
  Qed.
  Inductive plain_rc : register_cluster -> Prop :=
    | pl_reg r : plain_register r -> plain_rc (RCRegister r)
    | pl_clu (c : cluster) : c_derived_from (info c) = None -> Forall plain_rc (c_children (info c)) -> plain_rc (RCCluster c).
  Lemma expand_rc_stays fuel : forall b rc, plain_rc rc -> (forall x, in_rc rc x -> ok x) ->
    post (expand_rc m ix fuel b rc) (Forall child_stays).
  Proof using NS.
    induction fuel as [|k IH]; intros b rc G S; cbn [expand_rc]; [exact I|].
    destruct rc as [r|c].
    - apply expand_register_stays; [inversion G; assumption|]. intros x Hx. apply S, ic_register, Hx.
    - inversion G as [|? D K]; subst. destruct (c_derived_from (info c)) as [s|] eqn:Ed; [exfalso; pose proof (eq_trans (eq_sym Ed) D); discriminate|].
      cbn [bind fst snd]. cbv zeta. apply wp_bind.
      apply wp_weak with (Q := Forall child_stays).
      { apply wp_concatM. rewrite Forall_forall in K. intros rc Ic. apply IH; [apply K, Ic|].
        intros x Hx. apply S. eapply ic_child; eassumption. }
      intros kids F. destruct c as [i|i e]; cbn [ma_map]; [apply expand_cluster_stays, F|].
      apply wp_concatM. intros j _. apply wp_bind. unfold cluster_instance.
      destruct (index_at e j); cbn [bind wp]; auto. destruct (offset_at _ _ _ _); cbn [bind wp]; auto.
      apply expand_cluster_stays, F.
  Qed.
  Definition plain_peripheral (p : peripheral) : Prop :=
    p_derived_from (info p) = None /\ Forall plain_rc (or_empty (p_registers (info p))).
  Lemma peripheral_same (r g : peripheral_info) : p_default_properties r = p_default_properties g ->
    (forall x, in_peripheral r x -> ok x) -> (forall fs, p_registers g = Some fs -> Forall child_stays fs) ->
    forall x, in_peripheral g x -> ok x.
  Proof using NS.
    intros P H F x Hx. destruct Hx as [| |fs f x E I1 I2].
    - cbn [element_ok]. intros ->. contradiction.
    - rewrite <- P. apply H, ip_props.
    - specialize (F fs E). rewrite Forall_forall in F. destruct (F f I1) as (r' & -> & S). inversion I2; subst. auto.
  Qed.
  Lemma expand_peripheral_stays fuel p : plain_peripheral p -> peripheral_stays p ->
    post (expand_peripheral m ix fuel p) (Forall peripheral_stays).
  Proof using NS.
    intros [D V] S. unfold expand_peripheral. rewrite D. cbn [bind fst snd]. cbv zeta. apply wp_bind.
    apply wp_weak with (Q := fun r' => dims r' = dims p /\ p_default_properties (info r') = p_default_properties (info p) /\
      (forall fs, p_registers (info r') = Some fs -> Forall child_stays fs)).
    { destruct (p_registers (info p)) as [fs|] eqn:Ef; [|cbn; rewrite Ef; conjs; auto; discriminate].
      cbn [or_empty] in V. apply wp_bind. eapply wp_weak; [apply (wp_concatM _ _ _ child_stays)|].
      - intros f If. apply expand_rc_stays; [rewrite Forall_forall in V; auto|].
        intros x Hx. apply S. eapply ip_child; eassumption.
      - intros fs' H. cbn [wp]. rewrite dims_map, info_map. conjs; auto. cbn. intros ? [= <-]. exact H. }
    intros r' (Dm & P & F). destruct r' as [i|i e]; cbn [info] in *.
    - repeat constructor. intros x Hx. eapply (peripheral_same (info p)); [symmetry; exact P|exact S|exact F|exact Hx].
    - apply wp_bind. eapply wp_weak; [apply (wp_mapM _ _ _ (fun i' => peripheral_stays (Single i')))|].
      + intros j _. unfold peripheral_instance. destruct (index_at e j); cbn; auto. destruct (base_at _ _ _ _); cbn; auto.
        intros x Hx. eapply (peripheral_same (info p)); [|exact S| |exact Hx]; [symmetry; exact P|exact F].
      + intros fs H. apply Forall_forall. intros x Ix. apply in_map_iff in Ix. destruct Ix as (y & <- & Iy).
        rewrite Forall_forall in H. apply H, Iy.
  Qed.
End Stay.

Section Plain.
  Variable d : device.
  Hypothesis NF : forall s, ~ field_reference d s.
  Hypothesis NO : forall s, ~ other_reference d s.
  Lemma no_ref o (R : string -> Prop) : (forall s, ~ R s) -> (forall s, o = Some s -> R s) -> o = None.
  Proof. intros H K. destruct o as [s|]; [|reflexivity]. destruct (H s). auto. Qed.
  Lemma plain_child rc : child_of d rc -> plain_rc rc.
  Proof using NF NO.
    induction rc as [r|c IH] using rc_tree_ind; intros C.
    - constructor. split.
      + apply (no_ref _ _ NO). intros s E. right; right; left. eauto.
      + apply Forall_forall. intros f If. assert (Ff : field_of d f) by (exists r; auto). split.
        * apply (no_ref _ _ NF). intros s E. exists f. auto.
        * apply Forall_forall. intros e Ie. apply (no_ref _ _ NO). intros s E. right; right; right. exists e. split; [exists f; auto|exact E].
    - constructor; [apply (no_ref _ _ NO); intros s E; right; left; eauto|].
      rewrite Forall_forall in *. intros rc I. apply IH; [exact I|]. eapply co_in; eassumption.
  Qed.
  Lemma plain_device p : In p (d_peripherals d) -> plain_peripheral p.
  Proof using NF NO.
    intros I. split; [apply (no_ref _ _ NO); intros s E; left; eauto|].
    apply Forall_forall. intros rc Ic. apply plain_child. eapply co_top; eassumption.
  Qed.
End Plain.
Lemma expand_stays l m fuel d d' : l <> Strict -> (forall s, ~ field_reference d s) -> (forall s, ~ other_reference d s) ->
  (forall x, in_device d x -> element_ok l x) -> expand m fuel d = Ok d' -> d_peripherals d' <> [] ->
  forall x, in_device d' x -> element_ok l x.
Proof.
  intros NS NF NO V E NE. unfold expand in E. destruct (index_create d) as [ix| |]; cbn [bind] in E; try discriminate.
  assert (W : wp (fun _ => True) (fun _ => True) (concatM (expand_peripheral m ix fuel) (d_peripherals d)) (Forall (peripheral_stays l))).
  { apply wp_concatM. intros p Ip. apply expand_peripheral_stays; [exact NS|eapply plain_device; eassumption|].
    intros x Hx. apply V. eapply id_peripheral; eassumption. }
  destruct (concatM _ _) as [ps| |]; cbn [bind] in E; try discriminate. injection E as <-.
  intros x Hx. destruct Hx as [| |p x I1 I2].
  - intros _. exact NE.
  - apply V. apply (id_props d).
  - cbn [wp] in W. rewrite Forall_forall in W. exact (W p I1 x I2).
Qed.
