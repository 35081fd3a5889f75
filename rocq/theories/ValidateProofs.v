(** Proofs about validation. *)
From Verif Require Import BaseFacts Types Names Validate SpecArray ArrayProofs SpecValidate NameProofs TreeFacts.

Lemma bind_unit_ok (a b : res unit) : bind a (fun _ => b) = Ok tt <-> a = Ok tt /\ b = Ok tt.
Proof. destruct a as [[]|e|p]; cbn; intuition discriminate. Qed.
Lemma when_ok b r : when b r = Ok tt <-> (b = true -> r = Ok tt).
Proof. destruct b; cbn; intuition discriminate. Qed.
Lemma iterM_opt_ok {A} (f : A -> res unit) o : iterM_opt f o = Ok tt <-> opt_all (fun a => f a = Ok tt) o.
Proof. destruct o; cbn; tauto. Qed.
Lemma opt_all_iff {A} (P Q : A -> Prop) o : (forall a, P a <-> Q a) -> opt_all P o <-> opt_all Q o.
Proof. intros H. destruct o; cbn; [apply H|tauto]. Qed.
Lemma forall_in {A} (P : A -> Prop) l : Forall P l <-> forall a, In a l -> P a.
Proof. apply Forall_forall. Qed.
Lemma strict_iff l : is_strict l = true <-> l = Strict.
Proof. destruct l; cbn; intuition discriminate. Qed.
Lemma checked_iff l : negb (is_disabled l) = true <-> checked l.
Proof. destruct l; cbn; unfold checked; intuition discriminate. Qed.
Lemma strict_checked l : l = Strict -> checked l.
Proof. right; assumption. Qed.

Lemma size_le v s : (N.size v <=? s) = true <-> v < 2 ^ s.
Proof.
  rewrite N.leb_le. destruct (N.eq_0_gt_0_cases v) as [->|Hv].
  - split; intros; [apply N.neq_0_lt_0, N.pow_nonzero; lia|cbn; lia].
  - rewrite N.size_log2 by lia. rewrite N.le_succ_l. symmetry. apply N.log2_lt_pow2. assumption.
Qed.
Lemma land_sub v k : (N.land v k =? v) = true <-> forall i, N.testbit v i = true -> N.testbit k i = true.
Proof.
  rewrite N.eqb_eq. split.
  - intros H i Hi. rewrite <- H, N.land_spec in Hi. now apply andb_true_iff in Hi.
  - intros H. apply N.bits_inj. intros i. rewrite N.land_spec. specialize (H i).
    destruct (N.testbit v i); [now rewrite H|reflexivity].
Qed.

Lemma rp_validate_ok l p : rp_validate l p = Ok tt <-> props_ok l p.
Proof.
  unfold rp_validate, check_reset_value, props_ok. rewrite when_ok, checked_iff.
  rewrite bind_unit_ok, when_ok, strict_iff, bind_unit_ok.
  assert (A1 : match rp_size p, rp_reset_value p with
               | Some s, Some v => check (N.size v <=? s) (EValueTooLarge v s)
               | _, _ => Ok tt end = Ok tt <->
               forall s v, rp_size p = Some s -> rp_reset_value p = Some v -> v < 2 ^ s).
  { destruct (rp_size p) as [s|], (rp_reset_value p) as [v|]; try (split; [intros _ ? ?; discriminate|reflexivity]).
    rewrite check_ok, size_le. split; [intros H ? ? [= <-] [= <-]; exact H|intros H; now apply H]. }
  assert (A2 : match rp_size p, rp_reset_mask p with
               | Some s, Some v => check (N.size v <=? s) (EMaskTooLarge v s)
               | _, _ => Ok tt end = Ok tt <->
               forall s v, rp_size p = Some s -> rp_reset_mask p = Some v -> v < 2 ^ s).
  { destruct (rp_size p) as [s|], (rp_reset_mask p) as [v|]; try (split; [intros _ ? ?; discriminate|reflexivity]).
    rewrite check_ok, size_le. split; [intros H ? ? [= <-] [= <-]; exact H|intros H; now apply H]. }
  assert (A3 : match rp_reset_value p, rp_reset_mask p with
               | Some v, Some k => check (N.land v k =? v) (EMaskConflict v k)
               | _, _ => Ok tt end = Ok tt <->
               forall v k, rp_reset_value p = Some v -> rp_reset_mask p = Some k ->
               forall i, N.testbit v i = true -> N.testbit k i = true).
  { destruct (rp_reset_value p) as [s|], (rp_reset_mask p) as [v|]; try (split; [intros _ ? ?; discriminate|reflexivity]).
    rewrite check_ok, land_sub. split; [intros H ? ? [= <-] [= <-]; exact H|intros H; now apply H]. }
  rewrite A1, A2, A3. assert (S := strict_checked l). tauto.
Qed.

Lemma ev_validate_ok l e : ev_validate l e = Ok tt <-> value_ok l e.
Proof.
  unfold ev_validate, value_ok. rewrite when_ok, checked_iff, bind_unit_ok, when_ok, strict_iff, check_name_ok.
  assert (D : ev_default e = true <-> ev_is_default e = Some true).
  { unfold ev_default. destruct (ev_is_default e) as [[]|]; intuition discriminate. }
  assert (V : is_some (ev_value e) = true <-> ev_value e <> None) by (destruct (ev_value e); cbn; intuition discriminate).
  rewrite <- D, <- V. assert (S := strict_checked l). assert (T := strict_iff l).
  destruct (is_some (ev_value e)), (ev_default e), (is_strict l); intuition (discriminate || congruence).
Qed.

Lemma evs_validate_ok l e : evs_validate l e = Ok tt <-> values_ok l e.
Proof.
  unfold evs_validate, values_ok. rewrite when_ok, checked_iff, bind_unit_ok, when_ok, strict_iff, iterM_opt_ok.
  rewrite (opt_all_iff _ plain_name) by (intros a; apply check_name_ok).
  assert (S := strict_checked l).
  destruct (evs_derived_from e) as [dn|]; cbn [opt_all].
  - rewrite when_ok, strict_iff, check_derived_ok. intuition discriminate.
  - rewrite check_ok. destruct (evs_values e); cbn; intuition (discriminate || congruence).
Qed.
Lemma evs_validate_all_ok l e : evs_validate_all l e = Ok tt <-> forall x, in_values e x -> element_ok l x.
Proof.
  unfold evs_validate_all. rewrite bind_unit_ok, iterM_ok, forall_in, evs_validate_ok. split.
  - intros [H1 H2] x Hx. destruct Hx as [|v Hv]; cbn; [assumption|]. apply ev_validate_ok. auto.
  - intros H. split; [|apply (H _ (iv_self e))]. intros a Ha. apply ev_validate_ok. apply (H _ (iv_value e a Ha)).
Qed.

Lemma usage_none e : declared_usage e None <-> evs_get_usage e = None.
Proof. unfold declared_usage, evs_get_usage. destruct (evs_derived_from e); cbn; [tauto|]. destruct (evs_usage e); intuition discriminate. Qed.
Lemma usage_some e u : declared_usage e (Some u) <-> evs_get_usage e = Some u.
Proof.
  unfold declared_usage, evs_get_usage. destruct (evs_derived_from e); cbn; [intuition discriminate|].
  destruct (evs_usage e); cbn; intuition congruence.
Qed.
Lemma reads_spec e : reads_or_unknown (evs_get_usage e) = true <-> for_reading e.
Proof. unfold for_reading. rewrite usage_none, usage_some. destruct (evs_get_usage e) as [[]|]; cbn; intuition discriminate. Qed.
Lemma writes_spec e : writes_or_unknown (evs_get_usage e) = true <-> for_writing e.
Proof. unfold for_writing. rewrite usage_none, usage_some. destruct (evs_get_usage e) as [[]|]; cbn; intuition discriminate. Qed.

Lemma wc_check_ok lo hi w : wc_check_range lo hi 0 (2 ^ w) = Ok tt <-> lo <= hi /\ hi < 2 ^ w.
Proof.
  unfold wc_check_range. destruct (N.ltb_spec hi lo); [split; [discriminate|lia]|].
  rewrite iterM_ok. rewrite forall_in. unfold in_range. set (M := 2 ^ w). split.
  - intros K. assert (K1 := K hi (or_intror (or_introl eq_refl))). cbn beta in K1. rewrite check_ok in K1. lia.
  - intros [H1 H2] a [<-|[<-|[]]]; rewrite check_ok; lia.
Qed.

Lemma field_validate_ok l f : field_validate l f = Ok tt <-> field_ok l f.
Proof.
  unfold field_validate, field_ok. set (w := br_width (f_bit_range f)).
  destruct (is_disabled l) eqn:D.
  { destruct l; try discriminate. unfold checked. split; [intros _|reflexivity]. intuition discriminate. }
  assert (C : checked l) by (apply checked_iff; now rewrite D).
  rewrite !bind_unit_ok, !when_ok, !strict_iff, bind_unit_ok, check_dimable_ok, iterM_opt_ok, check_ok.
  rewrite (opt_all_iff _ derived_name) by (intros a; apply check_derived_ok).
  assert (A1 : iterM (evs_check_range 0 (2 ^ w)) (f_enumerated_values f) = Ok tt <->
     forall es e v, In es (f_enumerated_values f) -> In e (evs_values es) -> ev_value e = Some v -> v < 2 ^ w).
  { rewrite iterM_ok, forall_in. unfold evs_check_range. split.
    - intros H es e v Hes He Hv. specialize (H es Hes). rewrite iterM_ok, forall_in in H. specialize (H e He).
      unfold ev_check_range in H. rewrite Hv, check_ok in H. unfold in_range in H. set (M := 2 ^ w) in *. lia.
    - intros H es Hes. rewrite iterM_ok, forall_in. intros e He. unfold ev_check_range.
      destruct (ev_value e) as [v|] eqn:Hv; [|reflexivity]. rewrite check_ok.
      assert (K := H es e v Hes He Hv). unfold in_range. set (M := 2 ^ w) in *. lia. }
  assert (A2 : match f_enumerated_values f with
       | [] | [_] => Ok tt
       | [e1; e2] =>
           if reads_or_unknown (evs_get_usage e1) && writes_or_unknown (evs_get_usage e2) then Ok tt
           else if reads_or_unknown (evs_get_usage e2) && writes_or_unknown (evs_get_usage e1) then Ok tt
           else Err EIncompatibleUsages
       | _ => Err EIncompatibleUsages end = Ok tt <-> compatible_usages (f_enumerated_values f)).
  { unfold compatible_usages. destruct (f_enumerated_values f) as [|e1 [|e2 [|e3 es]]]; try tauto; [|intuition discriminate].
    rewrite <- !reads_spec, <- !writes_spec.
    destruct (reads_or_unknown (evs_get_usage e1)), (reads_or_unknown (evs_get_usage e2)),
      (writes_or_unknown (evs_get_usage e1)), (writes_or_unknown (evs_get_usage e2)); cbn; intuition discriminate. }
  assert (A3 : match f_write_constraint f with
       | Some (WcRange min max) => when (w <? 64) (wc_check_range min max 0 (2 ^ w))
       | _ => Ok tt end = Ok tt <->
       (w < 64 -> forall lo hi, f_write_constraint f = Some (WcRange lo hi) -> lo <= hi /\ hi < 2 ^ w)).
  { destruct (f_write_constraint f) as [[| |lo hi]|]; try (split; [intros _ _ ? ?; discriminate|reflexivity]).
    rewrite when_ok, wc_check_ok, N.ltb_lt. split; [intros H K ? ? [= <- <-]; auto|intros H K; now apply H]. }
  rewrite A1, A2, A3, N.ltb_lt.
  assert (W : negb (w =? 0) = true <-> 1 <= w) by lia. rewrite W. tauto.
Qed.
Lemma field_info_validate_all_ok l f : field_info_validate_all l f = Ok tt <-> forall x, in_field f x -> element_ok l x.
Proof.
  unfold field_info_validate_all. rewrite bind_unit_ok, iterM_ok, forall_in, field_validate_ok. split.
  - intros [H1 H2] x Hx. destruct Hx as [|es x Hes Hx]; [exact H2|].
    specialize (H1 es Hes). rewrite evs_validate_all_ok in H1. auto.
  - intros H. split; [|apply (H _ (if_self f))]. intros es Hes. apply evs_validate_all_ok.
    intros x Hx. apply H. eapply if_values; eassumption.
Qed.
Lemma ma_validate_all_ok {A} (f : level -> A -> res unit) l x : ma_validate_all f l x = f l (info x).
Proof. unfold ma_validate_all. destruct x; reflexivity. Qed.

Lemma register_validate_ok l r : register_validate l r = Ok tt <-> register_ok l r.
Proof.
  unfold register_validate, register_ok.
  rewrite when_ok, checked_iff, bind_unit_ok, when_ok, strict_iff, !bind_unit_ok, !iterM_opt_ok, check_dimable_ok.
  rewrite (opt_all_iff _ plain_name) by (intros a; apply check_name_ok).
  rewrite (opt_all_iff (fun a => check_dimable_name a "alternateRegister" = Ok tt) arrayable_name)
    by (intros a; apply check_dimable_ok).
  assert (S := strict_checked l). assert (T := strict_iff l).
  destruct (r_derived_from r) as [dn|]; cbn [opt_all].
  - rewrite when_ok, strict_iff, check_derived_ok. intuition discriminate.
  - destruct (r_fields r) as [[|f fs]|]; rewrite ?check_ok; cbn; destruct (is_strict l); cbn; intuition (discriminate || congruence).
Qed.
Lemma cluster_validate_ok l c : cluster_validate l c = Ok tt <-> cluster_ok l c.
Proof.
  unfold cluster_validate, cluster_ok.
  rewrite when_ok, checked_iff, bind_unit_ok, when_ok, strict_iff, check_dimable_ok.
  assert (S := strict_checked l). assert (T := strict_iff l).
  destruct (c_derived_from c) as [dn|]; cbn [opt_all].
  - rewrite when_ok, strict_iff, check_derived_ok. intuition discriminate.
  - rewrite check_ok. destruct (c_children c) as [|f fs]; cbn; destruct (is_strict l); cbn; intuition (discriminate || congruence).
Qed.
Lemma peripheral_validate_ok l p : peripheral_validate l p = Ok tt <-> peripheral_ok l p.
Proof.
  unfold peripheral_validate, peripheral_ok.
  rewrite when_ok, checked_iff, bind_unit_ok, when_ok, strict_iff, check_dimable_ok.
  assert (S := strict_checked l). assert (T := strict_iff l).
  destruct (p_derived_from p) as [dn|]; cbn [opt_all].
  - rewrite when_ok, strict_iff, check_dimable_ok. intuition discriminate.
  - destruct (p_registers p) as [[|f fs]|]; rewrite ?check_ok; cbn; destruct (is_strict l); cbn; intuition (discriminate || congruence).
Qed.
Lemma device_validate_ok l d : device_validate l d = Ok tt <-> device_ok l d.
Proof.
  unfold device_validate, device_ok. rewrite when_ok, checked_iff, check_ok.
  destruct (d_peripherals d); cbn; intuition (discriminate || congruence).
Qed.

Lemma register_info_validate_all_ok l r :
  register_info_validate_all l r = Ok tt <-> forall x, in_register r x -> element_ok l x.
Proof.
  unfold register_info_validate_all. rewrite !bind_unit_ok, iterM_ok, forall_in, register_validate_ok, rp_validate_ok. split.
  - intros (H1 & H2 & H3) x Hx. destruct Hx as [| |fs f x Hfs Hf Hx]; [exact H3|exact H1|].
    assert (K := H2 f). unfold r_fields_iter in K. rewrite Hfs in K. specialize (K Hf).
    unfold field_validate_all in K. rewrite ma_validate_all_ok, field_info_validate_all_ok in K. auto.
  - intros H. split; [apply (H _ (ir_props r))|]. split; [|apply (H _ (ir_self r))].
    intros f Hf. unfold field_validate_all. rewrite ma_validate_all_ok, field_info_validate_all_ok.
    intros x Hx. apply H. unfold r_fields_iter in Hf. destruct (r_fields r) as [fs|] eqn:E; [|destruct Hf].
    eapply ir_field; eassumption.
Qed.

(** The two loops over registers and over clusters together visit every child. *)
Lemma two_pass {P : register_cluster -> Prop} l :
  Forall (fun x => match x with RCRegister _ => P x | _ => True end) l /\
  Forall (fun x => match x with RCCluster _ => P x | _ => True end) l <-> Forall P l.
Proof.
  rewrite !forall_in. split.
  - intros [H1 H2] [r|c] Hx; [exact (H1 _ Hx)|exact (H2 _ Hx)].
  - intros H. split; intros [r|c] Hx; auto; exact (H _ Hx).
Qed.
Lemma rc_validate_all_ok l rc : rc_validate_all l rc = Ok tt <-> forall x, in_rc rc x -> element_ok l x.
Proof.
  induction rc as [r|c IH] using rc_tree_ind; cbn [rc_validate_all].
  - unfold register_validate_all. rewrite ma_validate_all_ok, register_info_validate_all_ok. split.
    + intros H x Hx. inversion Hx; subst. auto.
    + intros H x Hx. apply H. now constructor.
  - rewrite !bind_unit_ok, !iterM_ok, rp_validate_ok, cluster_validate_ok.
    assert (K : Forall (fun x => rc_validate_all l x = Ok tt) (c_children (info c)) <->
                forall rc x, In rc (c_children (info c)) -> in_rc rc x -> element_ok l x).
    { rewrite forall_in in IH |- *. split.
      - intros H rc x Hrc Hx. apply (proj1 (IH rc Hrc) (H rc Hrc) x Hx).
      - intros H rc Hrc. apply (proj2 (IH rc Hrc)). intros x Hx. apply (H rc x Hrc Hx). }
    assert (E1 : Forall (fun a => match a with RCRegister _ => rc_validate_all l a | RCCluster _ => Ok tt end = Ok tt) (c_children (info c))
      <-> Forall (fun x => match x with RCRegister _ => rc_validate_all l x = Ok tt | _ => True end) (c_children (info c))).
    { rewrite !forall_in. split; intros H [r|c'] Hx; specialize (H _ Hx); auto. }
    assert (E2 : Forall (fun a => match a with RCCluster _ => rc_validate_all l a | RCRegister _ => Ok tt end = Ok tt) (c_children (info c))
      <-> Forall (fun x => match x with RCCluster _ => rc_validate_all l x = Ok tt | _ => True end) (c_children (info c))).
    { rewrite !forall_in. split; intros H [r|c'] Hx; specialize (H _ Hx); auto. }
    rewrite E1, E2.
    assert (G := @two_pass (fun x => rc_validate_all l x = Ok tt) (c_children (info c))). rewrite K in G.
    assert (DV : match c with Array _ d => de_validate l d | Single _ => Ok tt end = Ok tt) by (destruct c; reflexivity).
    split.
    + intros (_ & H1 & H2 & H3 & H4) x Hx. assert (H5 := proj1 G (conj H2 H3)).
      inversion Hx; subst; [exact H4|exact H1|eapply H5; eassumption].
    + intros H. split; [exact DV|]. split; [apply (H _ (ic_props c))|].
      assert (H5 : forall rc x, In rc (c_children (info c)) -> in_rc rc x -> element_ok l x)
        by (intros rc x Hrc Hx; apply H; eapply ic_child; eassumption).
      apply G in H5 as [H5 H6]. split; [exact H5|]. split; [exact H6|]. apply (H _ (ic_self c)).
Qed.

Lemma children_validate_ok l cs :
  iterM (register_validate_all l) (rc_registers cs) = Ok tt /\ iterM (cluster_validate_all l) (rc_clusters cs) = Ok tt <->
  forall rc, In rc cs -> rc_validate_all l rc = Ok tt.
Proof.
  rewrite !iterM_ok, !forall_in. split.
  - intros [H1 H2] [r|c] Hx; [apply H1; now apply in_rc_registers|apply H2; now apply in_rc_clusters].
  - intros H. split; [intros r Hr|intros c Hc].
    + apply in_rc_registers in Hr. apply (H _ Hr).
    + apply in_rc_clusters in Hc. apply (H _ Hc).
Qed.
Lemma iterM_trivial {A} (f : A -> res unit) l : (forall a, f a = Ok tt) -> iterM f l = Ok tt.
Proof. intros H. apply iterM_ok. apply Forall_forall. auto. Qed.
Lemma peripheral_info_validate_all_ok l p :
  peripheral_info_validate_all l p = Ok tt <-> forall x, in_peripheral p x -> element_ok l x.
Proof.
  unfold peripheral_info_validate_all. rewrite !bind_unit_ok, peripheral_validate_ok, rp_validate_ok.
  assert (G := children_validate_ok l (p_children p)).
  assert (E1 : iterM_opt (iterM (ab_validate l)) (p_address_block p) = Ok tt)
    by (destruct (p_address_block p); [apply iterM_trivial|]; reflexivity).
  assert (E2 : iterM (it_validate l) (p_interrupt p) = Ok tt) by (apply iterM_trivial; reflexivity).
  split.
  - intros (_ & _ & H1 & H2 & H3 & H4) x Hx. assert (H5 := proj1 G (conj H2 H3)).
    destruct Hx as [| |rcs rc x Hrcs Hrc Hx]; [exact H4|exact H1|].
    unfold p_children in H5. rewrite Hrcs in H5. specialize (H5 rc Hrc). rewrite rc_validate_all_ok in H5. auto.
  - intros H. split; [exact E1|]. split; [exact E2|]. split; [apply (H _ (ip_props p))|].
    assert (H5 : forall rc, In rc (p_children p) -> rc_validate_all l rc = Ok tt).
    { intros rc Hrc. apply rc_validate_all_ok. intros x Hx. apply H.
      unfold p_children in Hrc. destruct (p_registers p) as [rcs|] eqn:E; [|destruct Hrc]. eapply ip_child; eassumption. }
    apply G in H5 as [H5 H6]. split; [exact H5|]. split; [exact H6|]. apply (H _ (ip_self p)).
Qed.
Lemma device_validate_all_ok l d : device_validate_all l d = Ok tt <-> forall x, in_device d x -> element_ok l x.
Proof.
  unfold device_validate_all. rewrite !bind_unit_ok, iterM_ok, forall_in, device_validate_ok, rp_validate_ok.
  assert (E : iterM_opt (cpu_validate l) (d_cpu d) = Ok tt) by (destruct (d_cpu d); reflexivity).
  split.
  - intros (_ & H1 & H2 & H3) x Hx. destruct Hx as [| |p x Hp Hx]; [exact H3|exact H1|].
    specialize (H2 p Hp). unfold peripheral_validate_all in H2.
    rewrite ma_validate_all_ok, peripheral_info_validate_all_ok in H2. auto.
  - intros H. split; [exact E|]. split; [apply (H _ (id_props d))|]. split; [|apply (H _ (id_self d))].
    intros p Hp. unfold peripheral_validate_all. rewrite ma_validate_all_ok, peripheral_info_validate_all_ok.
    intros x Hx. apply H. eapply id_peripheral; eassumption.
Qed.

(** ** Levels *)
Lemma element_disabled e : element_ok Disabled e.
Proof.
  assert (~ checked Disabled) by (unfold checked; intuition discriminate).
  destruct e; cbn; unfold props_ok, value_ok, values_ok, field_ok, register_ok, cluster_ok, peripheral_ok, device_ok;
  intuition discriminate.
Qed.
Lemma element_weaker e : element_ok Strict e -> element_ok Weak e.
Proof.
  assert (checked Strict) by (right; reflexivity).
  destruct e; cbn; unfold props_ok, value_ok, values_ok, field_ok, register_ok, cluster_ok, peripheral_ok, device_ok;
  intuition discriminate.
Qed.

(** ** Refusals are errors, not panics *)
Definition no_panic {A} (r : res A) : Prop := forall p, r <> Panic p.
Lemma np_bind {A B} (m : res A) (f : A -> res B) : no_panic m -> (forall a, no_panic (f a)) -> no_panic (bind m f).
Proof. intros H1 H2 p. destruct m; cbn; [apply H2|discriminate|intros _; now apply (H1 p0)]. Qed.
Lemma np_ok {A} (a : A) : no_panic (Ok a). Proof. intros p; discriminate. Qed.
Lemma np_err {A} e : no_panic (@Err A e). Proof. intros p; discriminate. Qed.
Lemma np_check b e : no_panic (check b e). Proof. destruct b; intros p; discriminate. Qed.
Lemma np_when b r : no_panic r -> no_panic (when b r). Proof. destruct b; [auto|intros _ p; discriminate]. Qed.
Lemma np_iterM {A} (f : A -> res unit) l : (forall a, In a l -> no_panic (f a)) -> no_panic (iterM f l).
Proof.
  induction l as [|a l IH]; intros H; [apply np_ok|]. cbn [iterM].
  apply np_bind; [apply H; now left|]. intros _. apply IH. intros b Hb. apply H. now right.
Qed.
Lemma np_iterM_opt {A} (f : A -> res unit) o : (forall a, no_panic (f a)) -> no_panic (iterM_opt f o).
Proof. destruct o; cbn; [auto|intros _; apply np_ok]. Qed.
Lemma np_check_name n t : no_panic (check_name n t). Proof. apply np_check. Qed.
Lemma np_check_dimable n t : no_panic (check_dimable_name n t). Proof. apply np_check. Qed.
Lemma np_check_derived n t : no_panic (check_derived_name n t). Proof. apply np_iterM. intros; apply np_check. Qed.
Ltac np :=
  repeat match goal with
    | |- no_panic (Ok _) => apply np_ok
    | |- no_panic (Err _) => apply np_err
    | |- no_panic (check _ _) => apply np_check
    | |- no_panic (check_name _ _) => apply np_check_name
    | |- no_panic (check_dimable_name _ _) => apply np_check_dimable
    | |- no_panic (check_derived_name _ _) => apply np_check_derived
    | |- no_panic (when _ _) => apply np_when
    | |- no_panic (bind _ _) => apply np_bind; [|intros ?]
    | |- no_panic (iterM _ _) => apply np_iterM; intros
    | |- no_panic (iterM_opt _ _) => apply np_iterM_opt; intros
    | |- no_panic (match ?x with _ => _ end) => destruct x
    end.
Lemma np_rp l p : no_panic (rp_validate l p). Proof. unfold rp_validate, check_reset_value. np. Qed.
Lemma np_ev l e : no_panic (ev_validate l e). Proof. unfold ev_validate. np. Qed.
Lemma np_evs l e : no_panic (evs_validate l e). Proof. unfold evs_validate. np. Qed.
Lemma np_evs_all l e : no_panic (evs_validate_all l e).
Proof. unfold evs_validate_all. np; auto using np_ev, np_evs. Qed.
Lemma np_field l f : no_panic (field_validate l f).
Proof. unfold field_validate, evs_check_range, ev_check_range, wc_check_range. np. Qed.
Lemma np_field_all l f : no_panic (field_validate_all l f).
Proof.
  unfold field_validate_all. rewrite ma_validate_all_ok. unfold field_info_validate_all. np; auto using np_evs_all, np_field.
Qed.
Lemma np_register l r : no_panic (register_validate l r). Proof. unfold register_validate. np. Qed.
Lemma np_register_all l r : no_panic (register_validate_all l r).
Proof.
  unfold register_validate_all. rewrite ma_validate_all_ok. unfold register_info_validate_all.
  np; auto using np_rp, np_field_all, np_register.
Qed.
Lemma np_cluster l c : no_panic (cluster_validate l c). Proof. unfold cluster_validate. np. Qed.
Lemma np_rc_all l rc : no_panic (rc_validate_all l rc).
Proof.
  induction rc as [r|c IH] using rc_tree_ind; cbn [rc_validate_all]; [apply np_register_all|].
  rewrite Forall_forall in IH.
  apply np_bind; [destruct c; apply np_ok|intros _]. apply np_bind; [apply np_rp|intros _].
  apply np_bind; [apply np_iterM; intros [r|c'] H; [apply (IH _ H)|apply np_ok]|intros _].
  apply np_bind; [apply np_iterM; intros [r|c'] H; [apply np_ok|apply (IH _ H)]|intros _].
  apply np_cluster.
Qed.
Lemma np_peripheral l p : no_panic (peripheral_validate l p). Proof. unfold peripheral_validate. np. Qed.
Lemma np_peripheral_all l p : no_panic (peripheral_validate_all l p).
Proof.
  unfold peripheral_validate_all. rewrite ma_validate_all_ok. unfold peripheral_info_validate_all, ab_validate, it_validate.
  np; auto using np_rp, np_register_all, np_peripheral; apply np_rc_all.
Qed.
Lemma np_device l d : no_panic (device_validate l d). Proof. unfold device_validate. np. Qed.
Lemma np_device_all l d : no_panic (device_validate_all l d).
Proof. unfold device_validate_all, cpu_validate. np; auto using np_rp, np_peripheral_all, np_device. Qed.
