(** Facts about everything the parser returns, and about when it panics. *)
From Verif Require Import BaseFacts Types Names Validate Builders Arrays Xml Parse SpecNum NumProofs EnumProofs
  SpecArray ArrayProofs InstanceProofs TreeFacts SpecValidate ValidateProofs SpecBuild BuilderProofs SpecText SpecXml XmlFacts BitProofs SpecParse.

Section XmlInd.
  Variable P : xml -> Prop.
  Hypothesis Helem : forall t a l, Forall P l -> P (Elem t a l).
  Hypothesis Htext : forall s, P (Text s).
  Hypothesis Hmisc : P Misc.
  Fixpoint xml_tree_ind (n : xml) : P n :=
    match n with
    | Elem t a l =>
        Helem t a l ((fix go (l : list xml) : Forall P l :=
                        match l with
                        | [] => Forall_nil P
                        | x :: l' => Forall_cons x (xml_tree_ind x) (go l')
                        end) l)
    | Text s => Htext s
    | Misc => Hmisc
    end.
End XmlInd.

Ltac binds H := repeat match type of H with
  | bind _ _ = Ok _ => let a := fresh "a" in let E := fresh "Eb" in apply bind_ok in H as (a & E & H)
  end.
Lemma rmap_ok {A B} (f : A -> B) r b : rmap f r = Ok b <-> exists a, r = Ok a /\ b = f a.
Proof. unfold rmap. rewrite bind_ok'. split; intros (a & E & H); exists a; split; congruence. Qed.
Lemma collect_ok {A} p (f : xml -> res A) l r : collect p f l = Ok r <-> Forall2 (fun n a => f n = Ok a) (filter p l) r.
Proof.
  revert r. induction l as [|n l IH]; intros r; cbn.
  - split; [intros H; injection H as <-; constructor|intros H; now inversion H].
  - destruct (p n); [|apply IH]. split.
    + intros H. apply bind_ok in H as (a & E & H). apply bind_ok in H as (r' & E' & H). injection H as <-.
      constructor; [exact E|now apply IH].
    + intros H. inversion H as [|n' a l' r' E F]; subst. rewrite E; cbn [bind]. apply IH in F. now rewrite F.
Qed.
Lemma collect_in {A} p (f : xml -> res A) l r a : collect p f l = Ok r -> In a r ->
  exists n, In n l /\ p n = true /\ f n = Ok a.
Proof.
  intros H I. apply collect_ok in H. destruct (Forall2_in_r _ _ _ H _ I) as (n & In' & E).
  apply filter_In in In' as [? ?]. eauto.
Qed.
Lemma mapM_opt_ok {A B} (f : A -> res B) o r : mapM_opt f o = Ok r <->
  match o, r with None, None => True | Some a, Some b => f a = Ok b | _, _ => False end.
Proof.
  destruct o as [a|]; cbn.
  - unfold rmap. destruct (f a) as [b| |]; cbn; destruct r; split; intros H; congruence || tauto.
  - destruct r; split; intros H; congruence || tauto.
Qed.

(** ** Everything built was validated *)
Definition all_ok (l : level) (P : element -> Prop) : Prop := forall x, P x -> element_ok l x.

Lemma rp_parse_ok cfg n p : rp_parse cfg n = Ok p -> props_ok (pc_level cfg) p.
Proof. unfold rp_parse. intros H. binds H. apply rp_build_ok in H as [-> H]. exact H. Qed.
Lemma ev_item_ok cfg n e : ev_item cfg n = Ok e -> value_ok (pc_level cfg) e.
Proof.
  unfold ev_item. destruct (has_tag _ n); [|discriminate]. unfold ev_parse. intros H. binds H.
  unfold ev_build in H. binds H. apply validated_ok in H as [-> H]. now apply ev_validate_ok in H.
Qed.
Lemma evs_parse_ok cfg n e : evs_parse cfg n = Ok e -> all_ok (pc_level cfg) (in_values e).
Proof.
  unfold evs_parse. intros H. binds H. unfold evs_build in H. apply validated_ok in H as [E V].
  apply evs_validate_ok in V. rewrite <- E in V.
  intros x [|v Iv]; cbn [element_ok]; [exact V|].
  rewrite E in Iv. cbn in Iv. match goal with C : collect _ _ _ = Ok _ |- _ => destruct (collect_in _ _ _ _ _ C Iv) as (c & _ & _ & K) end.
  now apply ev_item_ok in K.
Qed.
Lemma field_info_parse_ok m cfg n f : field_info_parse m cfg n = Ok f -> all_ok (pc_level cfg) (in_field f).
Proof.
  unfold field_info_parse. intros H. binds H. unfold field_build in H. cbn in H. apply validated_ok in H as [E V].
  apply field_validate_ok in V. rewrite <- E in V.
  intros x [|es v Ie Iv]; cbn [element_ok]; [exact V|].
  rewrite E in Ie. cbn in Ie. destruct (pc_ignore_enums cfg); cbn in *.
  - match goal with C : Ok [] = Ok _ |- _ => injection C as <- end. destruct Ie.
  - match goal with C : collect _ _ _ = Ok _ |- _ => destruct (collect_in _ _ _ _ _ C Ie) as (c & _ & _ & K) end.
    apply evs_parse_ok in K. now apply K.
Qed.

(** ** Arrays *)
Definition array_good {A} (name : A -> string) (x : maybe_array A) : Prop :=
  forall i d, x = Array i d -> has_placeholder (name i) /\ indexed d.
Lemma check_ok b e : check b e = Ok tt <-> b = true.
Proof. destruct b; split; auto; discriminate. Qed.
Lemma check_ok' b e u : check b e = Ok u -> b = true.
Proof. destruct b; auto; discriminate. Qed.
Lemma parse_array_ok {A} cfg t (name : A -> string) f n x : parse_array cfg t name f n = Ok x ->
  has_tag t n = true /\ f n = Ok (info x) /\ array_good name x.
Proof.
  unfold parse_array. intros H. apply bind_ok in H as ([] & E & H). apply check_ok in E.
  apply bind_ok in H as (i & F & H). destruct (is_some (get_child "dimIncrement" n)).
  - apply bind_ok in H as (d & D & H). apply bind_ok in H as ([] & Cn & H). apply bind_ok in H as (u & Ci & H).
    injection H as <-. conjs; auto. intros i' d' K. injection K as <- <-. apply check_ok, contains_spec in Cn. split.
    + exact Cn.
    + intros l L. rewrite L in Ci. apply check_ok', N.eqb_eq in Ci. unfold len_N in Ci. congruence.
  - injection H as <-. conjs; auto. intros i' d' K. discriminate.
Qed.

Lemma field_parse_ok m cfg n f : field_parse m cfg n = Ok f ->
  all_ok (pc_level cfg) (in_field (info f)) /\ array_good f_name f.
Proof. unfold field_parse. intros H. apply parse_array_ok in H as (_ & H & G). split; [now apply (field_info_parse_ok m _ n)|exact G]. Qed.

Lemma register_info_parse_ok m cfg n r : register_info_parse m cfg n = Ok r ->
  all_ok (pc_level cfg) (in_register r) /\ forall s d, array_in_register r s d -> has_placeholder s /\ indexed d.
Proof.
  unfold register_info_parse. intros H. binds H. unfold register_build in H. cbn in H.
  apply bind_ok in H as (p & P & H). apply rp_build_ok in P as [-> P]. apply validated_ok in H as [E V].
  apply register_validate_ok in V. rewrite <- E in V.
  assert (F : forall fs f, r_fields r = Some fs -> In f fs -> exists c, field_parse m cfg c = Ok f).
  { intros fs f R I. rewrite E in R. cbn in R. subst. 
    match goal with M : mapM_opt _ _ = Ok _ |- _ => apply mapM_opt_ok in M end.
    destruct (get_child "fields" n); [|contradiction].
    match goal with C : collect _ _ _ = Ok _ |- _ => destruct (collect_in _ _ _ _ _ C I) as (c & _ & _ & K) end. eauto. }
  split.
  - intros x [| |fs f y R I Y]; cbn [element_ok]; [exact V| |].
    + rewrite E. exact P.
    + destruct (F fs f R I) as (c & K). now apply (field_parse_ok m cfg c f K).
  - intros s d [fs f d' R I]. destruct (F fs _ R I) as (c & K). now apply (field_parse_ok m cfg c _ K).
Qed.

Definition rc_good (l : level) (rc : register_cluster) : Prop :=
  all_ok l (in_rc rc) /\ forall s d, array_in_rc rc s d -> has_placeholder s /\ indexed d.

Lemma cluster_info_parse_ok cfg kids n c : cluster_info_parse cfg kids n = Ok c ->
  kids = Ok (c_children c) /\ props_ok (pc_level cfg) (c_default_properties c) /\ cluster_ok (pc_level cfg) c.
Proof.
  unfold cluster_info_parse. intros H. binds H. unfold cluster_build in H. cbn in H.
  apply bind_ok in H as (p & P & H). apply rp_build_ok in P as [-> P]. apply validated_ok in H as [E V].
  apply cluster_validate_ok in V. rewrite <- E in V. rewrite E at 1 2. cbn. auto.
Qed.
Lemma cluster_good cfg n c kids :
  parse_array cfg "cluster" c_name (cluster_info_parse cfg kids) n = Ok c ->
  (forall l, kids = Ok l -> Forall (rc_good (pc_level cfg)) l) -> rc_good (pc_level cfg) (RCCluster c).
Proof.
  intros H K. apply parse_array_ok in H as (_ & H & G). apply cluster_info_parse_ok in H as (E & P & V).
  specialize (K _ E). rewrite Forall_forall in K. split.
  - intros x X. inversion X as [| | |c' rc y I Y]; subst; cbn [element_ok]; auto. now apply (K rc I).
  - intros s d A. inversion A as [| |i d'|c' rc s' d' I Y]; subst; [now apply (G i d)|]. now apply (K rc I).
Qed.
Lemma rc_parse_ok m cfg n : forall rc, rc_parse m cfg n = Ok rc -> rc_good (pc_level cfg) rc.
Proof.
  induction n as [t a l IH|s|] using xml_tree_ind; intros rc H; [|discriminate..]. cbn [rc_parse tag] in H.
  destruct (seqb t "register").
  - apply rmap_ok in H as (r & H & ->). unfold register_parse in H. apply parse_array_ok in H as (_ & H & G).
    apply register_info_parse_ok in H as [V F]. split.
    + intros x X. inversion X; subst. now apply V.
    + intros s d A. inversion A as [i d'|r' s' d' I| |]; subst; [now apply (G i d)|now apply F].
  - destruct (seqb t "cluster"); [|discriminate]. apply rmap_ok in H as (c & H & ->).
    eapply cluster_good; [exact H|]. intros l' C. apply collect_ok in C. rewrite Forall_forall in *.
    intros rc I. destruct (Forall2_in_r _ _ _ C _ I) as (c' & I' & E). apply filter_In in I' as [I' _]. now apply (IH c').
Qed.
Lemma cluster_parse_ok m cfg n c : cluster_parse m cfg n = Ok c -> rc_good (pc_level cfg) (RCCluster c).
Proof.
  unfold cluster_parse. intros H. eapply cluster_good; [exact H|]. intros l C. apply Forall_forall. intros rc I.
  destruct (collect_in _ _ _ _ _ C I) as (c' & _ & _ & E). now apply rc_parse_ok in E.
Qed.

Lemma peripheral_info_parse_ok m cfg n p : peripheral_info_parse m cfg n = Ok p ->
  all_ok (pc_level cfg) (in_peripheral p) /\ forall s d, array_in_peripheral p s d -> has_placeholder s /\ indexed d.
Proof.
  unfold peripheral_info_parse. intros H. binds H. unfold peripheral_build in H. cbn [required ok_or bind pb_name pb_base_address pb_default_properties] in H.
  apply bind_ok in H as (q & P & H). apply rp_build_ok in P as [-> P]. apply validated_ok in H as [E V].
  apply peripheral_validate_ok in V. rewrite <- E in V.
  assert (F : forall rcs rc, p_registers p = Some rcs -> In rc rcs -> rc_good (pc_level cfg) rc).
  { intros rcs rc R I. rewrite E in R. cbn in R. subst.
    match goal with M : mapM_opt _ _ = Ok _ |- _ => apply mapM_opt_ok in M end.
    destruct (get_child "registers" n); [|contradiction].
    match goal with C : collect is_element _ _ = Ok _ |- _ => destruct (collect_in _ _ _ _ _ C I) as (c & _ & _ & K) end.
    now apply rc_parse_ok in K. }
  split.
  - intros x [| |rcs rc y R I Y]; cbn [element_ok]; [exact V| |].
    + rewrite E. exact P.
    + now apply (F rcs rc R I).
  - intros s d [rcs rc s' d' R I A]. now apply (F rcs rc R I).
Qed.
Lemma device_parse_ok m cfg n x : device_parse m cfg n = Ok x ->
  all_ok (pc_level cfg) (in_device x) /\ forall s d, array_in_device x s d -> has_placeholder s /\ indexed d.
Proof.
  unfold device_parse. intros H. binds H. unfold device_build in H. apply bind_ok in H as (a20 & _ & H).
  apply bind_ok in H as (a21 & _ & H). apply bind_ok in H as (a22 & _ & H). apply bind_ok in H as (a23 & _ & H).
  apply bind_ok in H as (a24 & _ & H).
  cbn [required ok_or bind db_default_properties db_peripherals] in H.
  apply bind_ok in H as (q & P & H). apply rp_build_ok in P as [-> P]. apply validated_ok in H as [E V].
  apply device_validate_ok in V. rewrite <- E in V.
  assert (F : forall p, In p (d_peripherals x) -> exists c, peripheral_parse m cfg c = Ok p).
  { intros p I. rewrite E in I. cbn in I.
    match goal with C : collect is_element _ _ = Ok _ |- _ => destruct (collect_in _ _ _ _ _ C I) as (c & _ & _ & K) end. eauto. }
  split.
  - intros y [| |p z I Y]; cbn [element_ok]; [exact V| |].
    + rewrite E. exact P.
    + destruct (F p I) as (c & K). unfold peripheral_parse in K. apply parse_array_ok in K as (_ & K & _).
      apply peripheral_info_parse_ok in K as [K _]. now apply K.
  - intros s d [p d' I|p s' d' I A]; destruct (F _ I) as (c & K); unfold peripheral_parse in K; apply parse_array_ok in K as (_ & K & G).
    + now apply (G p d').
    + apply peripheral_info_parse_ok in K as [_ K]. now apply K.
Qed.
