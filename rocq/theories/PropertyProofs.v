From Verif Require Import BaseFacts Types TreeFacts Derive DeriveProofs SpecExpand SpecProps Expand ExpandProofs ChainProofs.

Lemma nearest_cons {A B} (get : A -> option B) x l v : nearest get l v -> nearest get (x :: l) (opt_or (get x) v).
Proof. cbn [nearest]. destruct (get x); cbn [opt_or]; [left|right]; eauto. Qed.
Lemma resolved_cons x l q : resolved l q -> resolved (x :: l) (rp_derive x q).
Proof.
  intros (H1 & H2 & H3 & H4 & H5). unfold resolved, nearest_props.
  conjs; cbn [rp_derive rp_size rp_access rp_protection rp_reset_value rp_reset_mask];
    eapply (nearest_cons (fun x => _ x)); assumption.
Qed.
Lemma resolved_one x : resolved [x] x.
Proof. apply (nearest_props_self (fun x => x)). Qed.

Lemma expand_properties_rc_filled rc : forall levels q, resolved levels q ->
  filled levels rc (expand_properties_rc q rc).
Proof.
  induction rc as [r|c IH] using rc_tree_ind; intros levels q H; cbn [expand_properties_rc].
  - destruct (r_derived_from (info r)) as [s|] eqn:D; cbn [is_some].
    + constructor. congruence.
    + apply fl_register; [exact D|]. exists (rp_derive (r_properties (info r)) q). split.
      * apply resolved_cons. exact H.
      * destruct r; reflexivity.
  - destruct (c_derived_from (info c)) as [s|] eqn:D; cbn [is_some].
    + apply fl_derived_cluster. intros E. pose proof (eq_trans (eq_sym D) E). discriminate.
    + eapply fl_cluster; [exact D| |destruct c; reflexivity].
      assert (R : resolved (c_default_properties (info c) :: levels) (rp_derive (c_default_properties (info c)) q))
        by (apply resolved_cons; exact H).
      assert (K : forall lv q', resolved lv q' ->
        Forall2 (filled lv) (c_children (info c)) (map (expand_properties_rc q') (c_children (info c)))).
      { intros lv q' Rq. induction IH as [|x l Hx _ IHl]; cbn [map]; constructor; auto. }
      exact (K _ _ R).
Qed.
Lemma expand_properties_peripheral_filled top p : filled_peripheral top p (expand_properties_peripheral top p).
Proof.
  unfold expand_properties_peripheral. split; destruct (p_derived_from (info p)) as [s|] eqn:D; cbn [is_some]; try congruence.
  intros _. exists (option_map (map (expand_properties_rc (rp_derive (p_default_properties (info p)) top))) (p_registers (info p))).
  split; [destruct p; reflexivity|]. destruct (p_registers (info p)) as [l|]; [|reflexivity]. cbn [option_map].
  eexists. split; [reflexivity|]. induction l as [|x l IH]; cbn [map]; constructor; [|exact IH].
  apply expand_properties_rc_filled, resolved_cons, resolved_one.
Qed.
Lemma expand_properties_filled d :
  same_but_peripherals d (expand_properties d) /\
  Forall2 (filled_peripheral (d_default_properties d)) (d_peripherals d) (d_peripherals (expand_properties d)).
Proof.
  split; [unfold same_but_peripherals; cbn; repeat (split; [reflexivity|]); reflexivity|].
  unfold expand_properties. cbn [d_peripherals d_set_peripherals].
  induction (d_peripherals d) as [|p l IH]; cbn [map]; constructor; [|exact IH].
  apply expand_properties_peripheral_filled.
Qed.

Lemma resolved_fun levels q q' : resolved levels q -> resolved levels q' -> q = q'.
Proof.
  assert (F : forall B (get : reg_props -> option B) v v', nearest get levels v -> nearest get levels v' -> v = v').
  { intros B get. induction levels as [|x l IH]; cbn [nearest]; [congruence|].
    intros v v' [(b & E & ->)|[E N]] [(b' & E' & ->)|[E' N']]; try congruence. auto. }
  intros (H1 & H2 & H3 & H4 & H5) (K1 & K2 & K3 & K4 & K5).
  destruct q, q'; cbn in *. f_equal; eapply F; eauto.
Qed.

(** ** Twice *)
Lemma ma_map_id {A} (f : A -> A) x : f (info x) = info x -> ma_map f x = x.
Proof. destruct x; cbn; intros ->; reflexivity. Qed.
Lemma expand_properties_rc_twice rc : forall q,
  expand_properties_rc q (expand_properties_rc q rc) = expand_properties_rc q rc.
Proof.
  induction rc as [r|c IH] using rc_tree_ind; intros q; cbn [expand_properties_rc].
  - destruct (r_derived_from (info r)) as [s|] eqn:D; cbn [is_some expand_properties_rc].
    + now rewrite D.
    + destruct r as [i|i e]; cbn [ma_map info] in *; cbn [r_set_properties r_derived_from]; rewrite D; cbn [is_some];
        f_equal; f_equal; unfold r_set_properties; cbn; f_equal; apply (proj1 rp_algebra).
  - destruct (c_derived_from (info c)) as [s|] eqn:D; cbn [is_some expand_properties_rc].
    + rewrite D. reflexivity.
    + assert (K : forall q', map (expand_properties_rc q') (map (expand_properties_rc q') (c_children (info c))) =
                             map (expand_properties_rc q') (c_children (info c))).
      { intros q'. rewrite map_map. apply map_ext_in. intros x I. rewrite Forall_forall in IH. auto. }
      destruct c as [i|i e]; cbn [ma_map info] in *; cbn [c_with c_derived_from]; rewrite D; cbn [is_some];
        f_equal; f_equal; unfold c_with; cbn; f_equal; apply K.
Qed.
Lemma expand_properties_twice d : expand_properties (expand_properties d) = expand_properties d.
Proof.
  unfold expand_properties. cbn [d_peripherals d_set_peripherals d_default_properties].
  unfold d_set_peripherals at 1. cbn. unfold d_set_peripherals. f_equal. rewrite map_map. apply map_ext. intros p.
  unfold expand_properties_peripheral.
  destruct (p_derived_from (info p)) as [s|] eqn:D; cbn [is_some].
  - now rewrite D.
  - destruct p as [i|i e]; cbn [ma_map info] in *; cbn [p_with p_derived_from]; rewrite D; cbn [is_some];
      f_equal; unfold p_with; cbn; f_equal; destruct (p_registers i); cbn; try reflexivity;
      f_equal; rewrite map_map; apply map_ext; intros; apply expand_properties_rc_twice.
Qed.
