(** Parsing with and without enumerations. *)
From Verif Require Import BaseFacts Types Names Validate Builders Arrays Xml Parse SpecValidate ValidateProofs
  BuilderProofs SpecParse ParseProofs.

(** The same configuration with ignore_enums set. *)
Definition ignoring (cfg : pconfig) : pconfig :=
  {| pc_level := pc_level cfg; pc_expand := pc_expand cfg;
     pc_expand_properties := pc_expand_properties cfg; pc_ignore_enums := true |}.

Lemma bare_field_valid l f : field_validate l f = Ok tt -> field_validate l (bare_field f) = Ok tt.
Proof.
  rewrite !field_validate_ok. unfold field_ok. cbn. intros (A & B & C & D). conjs; auto; try tauto.
  intros _ _ lo hi E. discriminate.
Qed.
Lemma bare_register_valid l r : register_validate l r = Ok tt -> register_validate l (bare_register r) = Ok tt.
Proof.
  rewrite !register_validate_ok. unfold register_ok. cbn. intros H S. destruct (H S) as (A & B & C & D & E). conjs; auto.
  intros N F. apply (E N). destruct (r_fields r) as [[|]|]; cbn in *; congruence.
Qed.
Lemma bare_cluster_valid l c k : cluster_validate l c = Ok tt ->
  cluster_validate l (with_children c (map k (c_children c))) = Ok tt.
Proof.
  rewrite !cluster_validate_ok. unfold cluster_ok. cbn. intros H S. destruct (H S) as (A & B & C). conjs; auto.
  intros N F. apply (C N). destruct (c_children c); cbn in *; congruence.
Qed.
Lemma bare_peripheral_valid l p : peripheral_validate l p = Ok tt -> peripheral_validate l (bare_peripheral p) = Ok tt.
Proof.
  rewrite !peripheral_validate_ok. unfold peripheral_ok. cbn. intros H S. destruct (H S) as (A & B & C). conjs; auto.
  intros N F. apply (C N). destruct (p_registers p) as [[|]|]; cbn in *; congruence.
Qed.

Lemma collect_map {A B} p (f : xml -> res A) (g : xml -> res B) s l r :
  collect p f l = Ok r -> (forall n a, In n l -> f n = Ok a -> g n = Ok (s a)) -> collect p g l = Ok (map s r).
Proof.
  revert r. induction l as [|n l IH]; intros r H K; cbn in *.
  - injection H as <-. reflexivity.
  - destruct (p n).
    + apply bind_ok in H as (a & E & H). apply bind_ok in H as (r' & E' & H). injection H as <-.
      rewrite (K n a) by auto. cbn [bind]. rewrite (IH r') by eauto. reflexivity.
    + apply IH; eauto.
Qed.
Lemma parse_array_map {A} cfg t (name : A -> string) (f g : xml -> res A) s n x :
  (forall i, f n = Ok i -> g n = Ok (s i)) -> (forall i, name (s i) = name i) ->
  parse_array cfg t name f n = Ok x -> parse_array (ignoring cfg) t name g n = Ok (on_info s x).
Proof.
  intros F Nm H. unfold parse_array in *. apply bind_ok in H as ([] & E & H). rewrite E. cbn [bind].
  apply bind_ok in H as (i & Fi & H). rewrite (F _ Fi). cbn [bind].
  destruct (is_some (get_child "dimIncrement" n)).
  - change (de_parse (ignoring cfg) n) with (de_parse cfg n).
    apply bind_ok in H as (d & -> & H). cbn [bind]. apply bind_ok in H as ([] & Cn & H). rewrite Nm, Cn. cbn [bind].
    apply bind_ok in H as (u & -> & H). cbn [bind]. injection H as <-. reflexivity.
  - injection H as <-. reflexivity.
Qed.

Lemma ignore_field_info m cfg n f : field_info_parse m cfg n = Ok f ->
  field_info_parse m (ignoring cfg) n = Ok (bare_field f).
Proof.
  unfold field_info_parse. intros H.
  do 6 (apply bind_ok in H as (? & -> & H); cbn [bind]).
  apply bind_ok in H as (wc & _ & H). apply bind_ok in H as (ra & -> & H). apply bind_ok in H as (evs & _ & H).
  cbn [pc_ignore_enums ignoring negb bind pc_level].
  unfold field_build in *. cbn in H. apply validated_ok in H as [-> V]. cbn.
  apply validated_ok. split; [reflexivity|]. apply (bare_field_valid _ _ V).
Qed.
Lemma ignore_field m cfg n f : field_parse m cfg n = Ok f -> field_parse m (ignoring cfg) n = Ok (on_info bare_field f).
Proof. unfold field_parse. apply parse_array_map; [intros i; apply ignore_field_info|reflexivity]. Qed.
Lemma ignore_register_info m cfg n r : register_info_parse m cfg n = Ok r ->
  register_info_parse m (ignoring cfg) n = Ok (bare_register r).
Proof.
  unfold register_info_parse. intros H. change (rp_parse (ignoring cfg) n) with (rp_parse cfg n).
  do 11 (apply bind_ok in H as (? & -> & H); cbn [bind]).
  apply bind_ok in H as (fs & F & H).
  assert (F' : mapM_opt (fun x => collect is_element (field_parse m (ignoring cfg)) (children x)) (get_child "fields" n) =
    Ok (option_map (map (on_info bare_field)) fs)).
  { apply mapM_opt_ok in F. apply mapM_opt_ok. destruct (get_child "fields" n); destruct fs as [fs|]; cbn; auto.
    eapply collect_map; [exact F|]. intros c a _. apply ignore_field. }
  rewrite F'. cbn [bind]. unfold register_build in *. cbn in *.
  apply bind_ok in H as (p & -> & H). cbn [bind]. apply validated_ok in H as [-> V].
  apply validated_ok. split; [reflexivity|]. apply (bare_register_valid _ _ V).
Qed.
Lemma ignore_cluster cfg n kids kids' s c :
  parse_array cfg "cluster" c_name (cluster_info_parse cfg kids) n = Ok c ->
  (forall l, kids = Ok l -> kids' = Ok (map s l)) ->
  parse_array (ignoring cfg) "cluster" c_name (cluster_info_parse (ignoring cfg) kids') n =
    Ok (on_info (fun c => with_children c (map s (c_children c))) c).
Proof.
  intros H K. revert H. apply parse_array_map; [|reflexivity]. intros i H. unfold cluster_info_parse in *.
  change (rp_parse (ignoring cfg) n) with (rp_parse cfg n).
  do 6 (apply bind_ok in H as (? & -> & H); cbn [bind]).
  apply bind_ok in H as (l & E & H). rewrite (K l E). cbn [bind].
  unfold cluster_build in *. cbn in *. apply bind_ok in H as (p & -> & H). cbn [bind]. apply validated_ok in H as [-> V].
  apply validated_ok. split; [reflexivity|]. apply (bare_cluster_valid _ _ _ V).
Qed.
Lemma bare_cluster c : bare_rc (RCCluster c) =
  RCCluster (on_info (fun c => with_children c (map bare_rc (c_children c))) c).
Proof. destruct c; reflexivity. Qed.
Lemma ignore_rc m cfg n : forall rc, rc_parse m cfg n = Ok rc -> rc_parse m (ignoring cfg) n = Ok (bare_rc rc).
Proof.
  induction n as [t a l IH|s|] using xml_tree_ind; intros rc H; [|discriminate..]. cbn [rc_parse tag] in *.
  destruct (seqb t "register").
  - apply rmap_ok in H as (r & H & ->). apply rmap_ok. exists (on_info bare_register r). split; [|reflexivity].
    revert H. unfold register_parse. apply parse_array_map; [intros i; apply ignore_register_info|reflexivity].
  - destruct (seqb t "cluster"); [|discriminate]. apply rmap_ok in H as (c & H & ->). rewrite bare_cluster.
    apply rmap_ok. eexists. split; [|reflexivity]. eapply ignore_cluster; [exact H|].
    intros l' C. eapply collect_map; [exact C|]. intros c' a' I E. rewrite Forall_forall in IH. now apply (IH c').
Qed.
Lemma ignore_peripheral m cfg n p : peripheral_parse m cfg n = Ok p ->
  peripheral_parse m (ignoring cfg) n = Ok (on_info bare_peripheral p).
Proof.
  unfold peripheral_parse. apply parse_array_map; [|reflexivity]. intros i H. unfold peripheral_info_parse in *.
  change (rp_parse (ignoring cfg) n) with (rp_parse cfg n). change (ab_parse (ignoring cfg)) with (ab_parse cfg).
  change (it_parse (ignoring cfg)) with (it_parse cfg).
  do 14 (apply bind_ok in H as (? & -> & H); cbn [bind]).
  apply bind_ok in H as (rs & F & H).
  assert (F' : mapM_opt (fun x => collect is_element (rc_parse m (ignoring cfg)) (children x)) (get_child "registers" n) =
    Ok (option_map (map bare_rc) rs)).
  { apply mapM_opt_ok in F. apply mapM_opt_ok. destruct (get_child "registers" n); destruct rs as [rs|]; cbn; auto.
    eapply collect_map; [exact F|]. intros c b _. apply ignore_rc. }
  rewrite F'. cbn [bind]. unfold peripheral_build in *. cbn in *.
  apply bind_ok in H as (p' & -> & H). cbn [bind]. apply validated_ok in H as [-> V].
  apply validated_ok. split; [reflexivity|]. apply (bare_peripheral_valid _ _ V).
Qed.
Lemma ignore_device m cfg n d : device_parse m cfg n = Ok d -> device_parse m (ignoring cfg) n = Ok (bare_device d).
Proof.
  unfold device_parse. intros H. change (rp_parse (ignoring cfg) n) with (rp_parse cfg n).
  change (cpu_parse (ignoring cfg)) with (cpu_parse cfg).
  do 11 (apply bind_ok in H as (? & -> & H); cbn [bind]).
  apply bind_ok in H as (ps & F & H). rewrite (collect_map _ _ _ (on_info bare_peripheral) _ _ F) by (intros; now apply ignore_peripheral).
  cbn [bind]. do 4 (apply bind_ok in H as (? & -> & H); cbn [bind]).
  unfold device_build in *.
  cbn [pc_level ignoring db_name db_version db_description db_address_unit_bits db_width db_default_properties] in *.
  do 6 (apply bind_ok in H as (? & -> & H); cbn [bind]).
  cbn [required ok_or bind db_peripherals] in *.
  apply validated_ok in H as [-> V]. apply validated_ok. split; [reflexivity|].
  apply device_validate_ok. apply device_validate_ok in V. unfold device_ok in *. cbn in *. intros L E. apply (V L).
  destruct ps; cbn in *; congruence.
Qed.
