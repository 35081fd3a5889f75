(** Leaving out enumerations before an expansion or after it. *)
From Verif Require Import Base BaseFacts TreeFacts Types Derive Arrays Expand SpecExpand SpecParse SpecBare ArrayProofs SwapProofs.

(** The second does as the first, unless that fails over enumerated values. *)
Definition gets {A B} (h : A -> B) (r : res A) (r' : res B) : Prop :=
  match r with
  | Ok x => r' = Ok (h x)
  | Err e => of_values e \/ r' = Err e
  | Panic p => p = OutOfFuel \/ r' = Panic p
  end.

Lemma gets_bind {A B C D} (h : A -> B) (k : C -> D) r r' f g : gets h r r' -> (forall x, r = Ok x -> gets k (f x) (g (h x))) ->
  gets k (bind r f) (bind r' g).
Proof.
  intros G H. destruct r as [x|e|p]; cbn in *; [rewrite G; now apply H|destruct G as [G| ->]; [now left|now right]..].
Qed.
Lemma gets_ok {A B} (h : A -> B) x y : h x = y -> gets h (Ok x) (Ok y).
Proof. now intros <-. Qed.
Lemma gets_err {A B} (h : A -> B) e : gets h (Err e) (Err e).
Proof. now right. Qed.
Lemma gets_panic {A B} (h : A -> B) p : gets h (Panic p) (Panic p).
Proof. now right. Qed.
Lemma gets_same {A B C} (k : B -> C) (r : res A) f g : (forall x, gets k (f x) (g x)) -> gets k (bind r f) (bind r g).
Proof. intros H. destruct r; cbn; auto. Qed.
Lemma gets_concat {A B C D} (h : list C -> list D) (g : A -> B) f f' l : h [] = [] -> (forall a b, h (a ++ b) = h a ++ h b) ->
  (forall x, In x l -> gets h (f x) (f' (g x))) -> gets h (concatM f l) (concatM f' (map g l)).
Proof.
  intros Z P. induction l as [|x l IH]; cbn [map concatM]; intros H; [now apply gets_ok|].
  apply gets_bind with (h := h); [apply H; now left|]. intros a _. apply gets_bind with (h := h); [apply IH; intros y I; apply H; now right|].
  intros b _. apply gets_ok. apply P.
Qed.
Lemma gets_concat_same {A C D} (h : list C -> list D) (f f' : A -> _) l : h [] = [] -> (forall a b, h (a ++ b) = h a ++ h b) ->
  (forall x, In x l -> gets h (f x) (f' x)) -> gets h (concatM f l) (concatM f' l).
Proof. intros Z P H. rewrite <- (map_id l) at 2. now apply gets_concat. Qed.
Lemma gets_mapM {A B C D} (h : C -> D) (g : A -> B) f f' l :
  (forall x, In x l -> gets h (f x) (f' (g x))) -> gets (map h) (mapM f l) (mapM f' (map g l)).
Proof.
  induction l as [|x l IH]; cbn [map mapM]; intros H; [now apply gets_ok|].
  apply gets_bind with (h := h); [apply H; now left|]. intros a _. apply gets_bind with (h := map h); [apply IH; intros y I; apply H; now right|].
  intros b _. now apply gets_ok.
Qed.
Lemma gets_mapM_same {A C D} (h : C -> D) (f f' : A -> _) l : (forall x, In x l -> gets h (f x) (f' x)) -> gets (map h) (mapM f l) (mapM f' l).
Proof. intros H. rewrite <- (map_id l) at 2. now apply gets_mapM. Qed.

Lemma on_info_map {A} (f : A -> A) x : on_info f x = ma_map f x.
Proof. now destruct x. Qed.
Lemma bare_names {A} (name : A -> string) f x : (forall i, name (f i) = name i) -> entry_names name (on_info f x) = entry_names name x.
Proof. intros H. rewrite on_info_map. now apply entry_names_map. Qed.

Definition bare_entry (e : entry) : index :=
  match e with
  | InPeripheral k p => [InPeripheral k (on_info bare_peripheral p)]
  | InCluster k c => match bare_rc (RCCluster c) with RCCluster c' => [InCluster k c'] | _ => [] end
  | InRegister k r => [InRegister k (on_info bare_register r)]
  | InField k f => [InField k (on_info bare_field f)]
  | InEnum _ _ => []
  end.
Definition bare_index (ix : index) : index := flat_map bare_entry ix.
Lemma bare_index_app a b : bare_index (a ++ b) = bare_index a ++ bare_index b.
Proof. apply flat_map_app. Qed.
#[local] Hint Resolve bare_index_app : core.

Definition bare_cluster (c : cluster) : cluster := on_info (fun i => with_children i (map bare_rc (c_children i))) c.
Lemma bare_rc_cluster c : bare_rc (RCCluster c) = RCCluster (bare_cluster c).
Proof. now destruct c. Qed.

Lemma bare_add_field path f : gets bare_index (add_field path f) (add_field path (on_info bare_field f)).
Proof.
  unfold add_field. rewrite bare_names by reflexivity. apply gets_same. intros ns. apply gets_ok.
  induction ns as [|n ns IH]; cbn [flat_map]; [reflexivity|]. rewrite bare_index_app, IH. f_equal.
  unfold field_at. rewrite bare_index_app. replace (f_enumerated_values (info (on_info bare_field f))) with (@nil enumerated_values) by now destruct f.
  cbn [flat_map app]. replace (bare_index _) with (@nil entry); [reflexivity|].
  induction (f_enumerated_values (info f)) as [|e l IHl]; cbn; [reflexivity|]. now destruct (evs_name e).
Qed.
Lemma bare_register_at rg r : gets bare_index (register_at rg r) (register_at rg (on_info bare_register r)).
Proof.
  unfold register_at. replace (r_fields_iter (info (on_info bare_register r))) with (map (on_info bare_field) (r_fields_iter (info r)))
    by (destruct r as [i|i d]; cbn; unfold r_fields_iter; cbn; now destruct (r_fields i)).
  apply gets_bind with (h := bare_index).
  - apply gets_concat; auto. intros f _. apply bare_add_field.
  - intros x _. apply gets_ok. now rewrite bare_index_app.
Qed.
Lemma bare_add_register path r : gets bare_index (add_register path r) (add_register path (on_info bare_register r)).
Proof.
  unfold add_register. rewrite bare_names by reflexivity. apply gets_same. intros ns. apply gets_concat_same; auto.
  intros n _. apply bare_register_at.
Qed.
Lemma bare_kids c : c_children (info (bare_cluster c)) = map bare_rc (c_children (info c)).
Proof. now destruct c. Qed.
Lemma bare_add_rc rc : forall path, gets bare_index (add_rc path rc) (add_rc path (bare_rc rc)).
Proof.
  induction rc as [r|c IH] using rc_tree_ind; intros path; [apply bare_add_register|].
  rewrite Forall_forall in IH. rewrite bare_rc_cluster. cbn [add_rc]. unfold bare_cluster at 1. rewrite bare_names by reflexivity.
  apply gets_same. intros ns. apply gets_concat_same; auto. intros n _. cbv zeta. rewrite bare_kids.
  apply gets_bind with (h := bare_index); [|intros a _; apply gets_bind with (h := bare_index); [|intros b _; apply gets_ok]].
  - apply gets_concat; auto. intros x I. pose proof (IH x I (new_cluster path n)) as B. destruct x as [r|x]; [exact B|].
    rewrite bare_rc_cluster. now apply gets_ok.
  - apply gets_concat; auto. intros x I. pose proof (IH x I (new_cluster path n)) as B. destruct x as [r|x]; [now apply gets_ok|].
    rewrite bare_rc_cluster in *. exact B.
  - rewrite !bare_index_app. f_equal. f_equal. cbn [bare_index flat_map bare_entry]. now rewrite bare_rc_cluster.
Qed.
Lemma bare_registers l : rc_registers (map bare_rc l) = map (on_info bare_register) (rc_registers l).
Proof. induction l as [|[r|c] l IH]; cbn [map rc_registers]; [reflexivity|cbn; now rewrite IH|]. now rewrite bare_rc_cluster. Qed.
Lemma bare_clusters l : rc_clusters (map bare_rc l) = map bare_cluster (rc_clusters l).
Proof. induction l as [|[r|c] l IH]; cbn [map rc_clusters]; [reflexivity|exact IH|]. rewrite bare_rc_cluster. cbn. now rewrite IH. Qed.
Lemma bare_add_peripheral p : gets bare_index (add_peripheral p) (add_peripheral (on_info bare_peripheral p)).
Proof.
  unfold add_peripheral. rewrite bare_names by reflexivity. apply gets_same. intros ns. apply gets_concat_same; auto. intros n _. cbv zeta.
  replace (p_children (info (on_info bare_peripheral p))) with (map bare_rc (p_children (info p)))
    by (destruct p as [i|i d]; cbn; unfold p_children; cbn; now destruct (p_registers i)).
  rewrite bare_registers, bare_clusters.
  apply gets_bind with (h := bare_index); [|intros a _; apply gets_bind with (h := bare_index); [|intros b _; apply gets_ok]].
  - apply gets_concat; auto. intros r _. apply bare_add_register.
  - apply gets_concat; auto. intros c _. rewrite <- bare_rc_cluster. apply bare_add_rc.
  - now rewrite !bare_index_app.
Qed.
Lemma bare_create d : gets bare_index (index_create d) (index_create (bare_device d)).
Proof. unfold index_create. cbn [d_peripherals bare_device]. apply gets_concat; auto. intros p _. apply bare_add_peripheral. Qed.

Lemma lookup_app {A} (f : entry -> option A) a b : lookup f (a ++ b) = opt_or (lookup f b) (lookup f a).
Proof. induction a as [|e a IH]; cbn [app lookup]; [now destruct (lookup f b)|]. rewrite IH. now destruct (lookup f b). Qed.
Lemma lookup_bare {A} (f : entry -> option A) (h : A -> A) ix : (forall e, lookup f (bare_entry e) = option_map h (f e)) ->
  lookup f (bare_index ix) = option_map h (lookup f ix).
Proof.
  intros H. induction ix as [|e ix IH]; [reflexivity|]. cbn [bare_index flat_map lookup]. rewrite lookup_app, H.
  unfold bare_index in IH. rewrite IH. now destruct (lookup f ix).
Qed.

Section Bare.
  Variable m : mode.
  Variable ix : index.
  Lemma bare_ix_peripheral q : ix_peripheral (bare_index ix) q = option_map (on_info bare_peripheral) (ix_peripheral ix q).
  Proof. apply lookup_bare. intros []; cbn; try reflexivity; [now destruct (bp_eqb path q)|now destruct c]. Qed.
  Lemma bare_ix_cluster q : ix_cluster (bare_index ix) q = option_map bare_cluster (ix_cluster ix q).
  Proof. apply lookup_bare. intros []; cbn [bare_entry]; try reflexivity. rewrite bare_rc_cluster. cbn. now destruct (bp_eqb path q). Qed.
  Lemma bare_ix_register q : ix_register (bare_index ix) q = option_map (on_info bare_register) (ix_register ix q).
  Proof. apply lookup_bare. intros []; cbn; try reflexivity; [now destruct c|now destruct (rg_eqb path q)]. Qed.
  Lemma bare_ix_field q : ix_field (bare_index ix) q = option_map (on_info bare_field) (ix_field ix q).
  Proof. apply lookup_bare. intros []; cbn; try reflexivity; [now destruct c|now destruct (fp_eqb path q)]. Qed.

  Lemma bare_ma_derive {A} (name : A -> string) derive (h : A -> A) x y : (forall i, name (h i) = name i) ->
    (forall i j, derive (h i) (h j) = h (derive i j)) ->
    ma_derive name derive (on_info h x) (on_info h y) = on_info h (ma_derive name derive x y).
  Proof. intros N D. destruct x as [i|i d], y as [j|j e]; cbn; rewrite ?N, ?D; try reflexivity. now destruct (contains "%s" (name i)). Qed.
  Lemma bare_field_derive i j : field_derive (bare_field i) (bare_field j) = bare_field (field_derive i j).
  Proof. reflexivity. Qed.
  Lemma bare_register_derive i j : register_derive (bare_register i) (bare_register j) = bare_register (register_derive i j).
  Proof. unfold register_derive, bare_register. cbn. f_equal. now destruct (r_fields i). Qed.
  Lemma bare_peripheral_derive i j : peripheral_derive (bare_peripheral i) (bare_peripheral j) = bare_peripheral (peripheral_derive i j).
  Proof. unfold peripheral_derive, bare_peripheral. cbn. f_equal. now destruct (p_registers i). Qed.
  Lemma bare_cluster_derive c d : cluster_ma_derive (bare_cluster c) (bare_cluster d) = bare_cluster (cluster_ma_derive c d).
  Proof.
    unfold cluster_ma_derive, bare_cluster. apply bare_ma_derive; [reflexivity|]. intros i j. unfold cluster_derive, with_children, list_or. cbn. f_equal.
    now destruct (c_children i).
  Qed.

  Lemma bare_peripheral_ma x y : peripheral_ma_derive (on_info bare_peripheral x) (on_info bare_peripheral y) = on_info bare_peripheral (peripheral_ma_derive x y).
  Proof. apply bare_ma_derive; [reflexivity|apply bare_peripheral_derive]. Qed.
  Lemma bare_register_ma x y : register_ma_derive (on_info bare_register x) (on_info bare_register y) = on_info bare_register (register_ma_derive x y).
  Proof. apply bare_ma_derive; [reflexivity|apply bare_register_derive]. Qed.
  Lemma bare_field_ma x y : field_ma_derive (on_info bare_field x) (on_info bare_field y) = on_info bare_field (field_ma_derive x y).
  Proof. now apply bare_ma_derive. Qed.

  Lemma bare_derive_peripheral k : forall p dpath,
    gets (fun q => (on_info bare_peripheral (fst q), snd q)) (derive_peripheral ix k p dpath) (derive_peripheral (bare_index ix) k (on_info bare_peripheral p) dpath).
  Proof.
    induction k as [|k IH]; intros p dpath; cbn [derive_peripheral]; [now right|].
    replace (p_name (info (on_info bare_peripheral p))) with (p_name (info p)) by now destruct p.
    destruct (seqb dpath _); [now right|]. cbv zeta. rewrite bare_ix_peripheral. destruct (ix_peripheral ix _) as [d|]; cbn [ok_or option_map bind]; [|now right].
    rewrite bare_peripheral_ma.
    replace (p_derived_from (info (on_info bare_peripheral d))) with (p_derived_from (info d)) by now destruct d.
    destruct (p_derived_from (info d)); [apply IH|]. apply gets_ok. cbn. f_equal.
    replace (is_none (p_registers (info (on_info bare_peripheral p)))) with (is_none (p_registers (info p))); [reflexivity|].
    destruct p as [i|i e]; cbn; now destruct (p_registers i).
  Qed.
  Lemma bare_derive_cluster k : forall c dpath path,
    gets (fun q => (bare_cluster (fst q), snd q)) (derive_cluster ix k c dpath path) (derive_cluster (bare_index ix) k (bare_cluster c) dpath path).
  Proof.
    induction k as [|k IH]; intros c dpath path; cbn [derive_cluster]; [now right|].
    apply gets_same. intros q. cbv zeta.
    replace (c_name (info (bare_cluster c))) with (c_name (info c)) by now destruct c.
    destruct (bp_eqb _ _ && seqb _ _); [now right|]. rewrite bare_ix_cluster. destruct (ix_cluster ix _) as [d|]; cbn [ok_or option_map bind]; [|now right].
    rewrite bare_cluster_derive.
    replace (c_derived_from (info (bare_cluster d))) with (c_derived_from (info d)) by now destruct d.
    destruct (c_derived_from (info d)); [apply IH|]. apply gets_ok. cbn. f_equal. rewrite bare_kids. now destruct (c_children (info c)).
  Qed.
  Lemma bare_derive_register k : forall r dpath path,
    gets (fun q => (on_info bare_register (fst q), snd q)) (derive_register ix k r dpath path) (derive_register (bare_index ix) k (on_info bare_register r) dpath path).
  Proof.
    induction k as [|k IH]; intros r dpath path; cbn [derive_register]; [now right|].
    apply gets_same. intros q. cbv zeta.
    replace (r_name (info (on_info bare_register r))) with (r_name (info r)) by now destruct r.
    destruct (bp_eqb _ _ && seqb _ _); [now right|]. rewrite bare_ix_register. destruct (ix_register ix _) as [d|]; cbn [ok_or option_map bind]; [|now right].
    rewrite bare_register_ma.
    replace (r_derived_from (info (on_info bare_register d))) with (r_derived_from (info d)) by now destruct d.
    destruct (r_derived_from (info d)); [apply IH|]. apply gets_ok. cbn. f_equal.
    replace (is_none (r_fields (info (on_info bare_register r)))) with (is_none (r_fields (info r))); [reflexivity|].
    destruct r as [i|i e]; cbn; now destruct (r_fields i).
  Qed.
  (** The path of the values is of no interest any more. *)
  Definition gets_field (r r' : res (field * option field_path)) : Prop :=
    match r with
    | Ok x => exists o, r' = Ok (on_info bare_field (fst x), o)
    | Err e => r' = Err e
    | Panic p => r' = Panic p
    end.
  Lemma bare_derive_field k : forall f dpath path,
    gets_field (derive_field ix k f dpath path) (derive_field (bare_index ix) k (on_info bare_field f) dpath path).
  Proof.
    induction k as [|k IH]; intros f dpath path; cbn [derive_field]; [reflexivity|].
    destruct (fp_parse_str dpath) as [q| |]; cbn [bind]; [|reflexivity..].
    replace (f_name (info (on_info bare_field f))) with (f_name (info f)) by now destruct f.
    destruct (rg_eqb _ _ && seqb _ _); [reflexivity|]. rewrite bare_ix_field. destruct (ix_field ix _) as [d|]; cbn [ok_or option_map bind]; [|reflexivity].
    rewrite bare_field_ma.
    replace (f_derived_from (info (on_info bare_field d))) with (f_derived_from (info d)) by now destruct d.
    destruct (f_derived_from (info d)); [apply IH|]. eexists. reflexivity.
  Qed.
  Definition over_values {A} (r : res A) : Prop :=
    match r with Ok _ => True | Err e => of_values e | Panic p => p = OutOfFuel end.
  Lemma over_bind {A B} (r : res A) (f : A -> res B) : over_values r -> (forall x, over_values (f x)) -> over_values (bind r f).
  Proof. destruct r; cbn; auto. Qed.
  Lemma pop_cons {A} (a : A) l : exists q, pop (a :: l) = Some q.
  Proof. revert a; induction l as [|b l IH]; intros a; [eexists; reflexivity|]. destruct (IH b) as [[i z] E]. cbn in *. rewrite E. eauto. Qed.
  Lemma over_parse v : v <> [] -> over_values (bp_parse_vec v).
  Proof.
    intros V. unfold bp_parse_vec. destruct v as [|a v]; [contradiction|]. destruct (pop_cons a v) as [q ->]. cbn. now destruct (fst q).
  Qed.
  Lemma over_derive k : forall ev dpath fpath, over_values (derive_enum ix k ev dpath fpath).
  Proof.
    induction k as [|k IH]; intros ev dpath fpath; cbn [derive_enum]; [reflexivity|].
    destruct (is_name dpath (evs_name ev)); [exact I|]. apply over_bind.
    { pose proof (split_nonempty "." dpath) as N. destruct (split "." dpath) as [|a v]; [contradiction|]. destruct (pop_cons a v) as [q ->]. exact I. }
    intros q. cbv zeta. apply over_bind.
    - destruct (pop (fst q)) as [[v fd]|]; [|exact I]. apply over_bind.
      + destruct v as [|a v]; [exact I|]. cbn [is_nil]. apply over_bind; [apply over_parse; discriminate|]. intros x. exact I.
      + intros x. destruct (fp_eqb x fpath && _); exact I.
    - intros [[x e]|]; [|exact I]. destruct (evs_derived_from x); [apply IH|exact I].
  Qed.
  Lemma over_enums k fpath l : over_values (mapM (expand_enum ix k fpath) l).
  Proof.
    induction l as [|e l IH]; cbn [mapM]; [exact I|]. apply over_bind; [|intros x; apply over_bind; [exact IH|intros y; exact I]].
    unfold expand_enum. destruct (evs_derived_from e); [|exact I]. apply over_bind; [apply over_derive|]. intros x. exact I.
  Qed.

  Lemma bare_expand_field k path f : gets (map (on_info bare_field)) (expand_field m ix k path f) (expand_field m (bare_index ix) k path (on_info bare_field f)).
  Proof.
    unfold expand_field.
    assert (X : gets_field match f_derived_from (info f) with
                          | Some dpath => derive_field ix k (ma_map f_underive f) dpath path
                          | None => Ok (f, None)
                          end match f_derived_from (info (on_info bare_field f)) with
                          | Some dpath => derive_field (bare_index ix) k (ma_map f_underive (on_info bare_field f)) dpath path
                          | None => Ok (on_info bare_field f, None)
                          end).
    { replace (f_derived_from (info (on_info bare_field f))) with (f_derived_from (info f)) by now destruct f.
      destruct (f_derived_from (info f)) as [s|]; [|eexists; reflexivity].
      replace (ma_map f_underive (on_info bare_field f)) with (on_info bare_field (ma_map f_underive f)) by now destruct f.
      apply bare_derive_field. }
    unfold field in *. match goal with |- gets _ (bind ?a _) (bind ?b _) => set (a' := a) in *; set (b' := b) in * end.
    destruct a' as [[z o]|e|p]; cbn in X; [destruct X as [o' X]|..]; rewrite X; cbn [bind fst snd]; [|now right..].
    match goal with |- gets _ (bind (mapM (expand_enum _ _ ?y) ?l) _) _ => pose proof (over_enums k y l) as V end.
    destruct (mapM _ _) as [evs|e|p]; cbn [bind]; [|now left..]. clear V.
    destruct z as [i|i d]; cbn [ma_map on_info info f_enumerated_values bare_field mapM bind]; [now apply gets_ok|].
    apply gets_bind with (h := map bare_field).
    - apply gets_mapM_same. intros n _. unfold field_instance. cbn. apply gets_same. intros idx. apply gets_same. intros off. now apply gets_ok.
    - intros l _. apply gets_ok. now rewrite !map_map.
  Qed.
  Lemma bare_expand_register k path r :
    gets (map bare_rc) (expand_register_array m ix k path r) (expand_register_array m (bare_index ix) k path (on_info bare_register r)).
  Proof.
    unfold expand_register_array. apply gets_bind with (h := fun q => (on_info bare_register (fst q), snd q)).
    { replace (r_derived_from (info (on_info bare_register r))) with (r_derived_from (info r)) by now destruct r.
      destruct (r_derived_from (info r)) as [s|]; [|now apply gets_ok].
      replace (ma_map r_underive (on_info bare_register r)) with (on_info bare_register (ma_map r_underive r)) by now destruct r.
      apply bare_derive_register. }
    intros [z o] _. cbv zeta. cbn [fst snd].
    replace (r_name (info (on_info bare_register z))) with (r_name (info z)) by now destruct z.
    set (rpath := opt_default _ _).
    apply gets_bind with (h := on_info bare_register).
    - replace (r_fields (info (on_info bare_register z))) with (option_map (map (on_info bare_field)) (r_fields (info z))) by now destruct z.
      destruct (r_fields (info z)) as [fs|]; cbn [option_map]; [|now apply gets_ok].
      apply gets_bind with (h := map (on_info bare_field)).
      + apply gets_concat; [reflexivity|apply map_app|]. intros f _. apply bare_expand_field.
      + intros l _. apply gets_ok. now destruct z.
    - intros x _. destruct x as [i|i d]; cbn [on_info]; [now apply gets_ok|]. apply gets_bind with (h := map bare_register).
      + apply gets_mapM_same. intros n _. unfold register_instance. cbn. apply gets_same. intros idx. apply gets_same. intros off. now apply gets_ok.
      + intros l _. apply gets_ok. now rewrite !map_map.
  Qed.
  Lemma bare_expand_cluster (c c' : cluster_info) : c_name c' = c_name c -> c_address_offset c' = c_address_offset c ->
    c_children c' = map bare_rc (c_children c) -> gets (map bare_rc) (expand_cluster m c) (expand_cluster m c').
  Proof.
    intros N O C. unfold expand_cluster. rewrite C, N, O. apply gets_mapM. intros x _. destruct x as [r|x]; [|rewrite bare_rc_cluster; now right].
    cbn [bare_rc]. replace (r_address_offset (info (on_info bare_register r))) with (r_address_offset (info r)) by now destruct r.
    apply gets_same. intros off. apply gets_ok. now destruct r.
  Qed.
  Lemma bare_expand_rc k : forall path rc, gets (map bare_rc) (expand_rc m ix k path rc) (expand_rc m (bare_index ix) k path (bare_rc rc)).
  Proof.
    induction k as [|k IH]; intros path rc; [now right|]. destruct rc as [r|c]; [apply bare_expand_register|].
    rewrite bare_rc_cluster. cbn [expand_rc]. apply gets_bind with (h := fun q => (bare_cluster (fst q), snd q)).
    { assert (N : c_derived_from (info (bare_cluster c)) = c_derived_from (info c)) by now destruct c.
      unfold cluster_info, cluster in *. rewrite N. clear N.
      destruct (c_derived_from (info c)) as [s|]; [|now apply gets_ok].
      pose proof (bare_derive_cluster k (ma_map (fun i => c_with i (c_children i) None) c) s path) as B.
      destruct c; exact B. }
    intros [z o] _. cbv zeta. cbn [fst snd]. rewrite bare_kids.
    replace (c_name (info (bare_cluster z))) with (c_name (info z)) by now destruct z.
    apply gets_bind with (h := map bare_rc); [apply gets_concat; [reflexivity|apply map_app|]; intros x _; apply IH|].
    intros kids _. destruct z as [i|i d]; cbn [bare_cluster on_info ma_map].
    - now apply bare_expand_cluster.
    - apply gets_concat_same; [reflexivity|apply map_app|]. intros n _. unfold cluster_instance.
      cbn [c_name c_address_offset c_with with_children c_description c_alternate_cluster c_header_struct_name c_default_properties c_children c_derived_from].
      rewrite !bind_assoc. apply gets_same. intros idx. rewrite !bind_assoc. apply gets_same. intros off. cbn [bind]. now apply bare_expand_cluster.
  Qed.
  Lemma bare_expand_peripheral k p :
    gets (map (on_info bare_peripheral)) (expand_peripheral m ix k p) (expand_peripheral m (bare_index ix) k (on_info bare_peripheral p)).
  Proof.
    unfold expand_peripheral. apply gets_bind with (h := fun q => (on_info bare_peripheral (fst q), snd q)).
    { replace (p_derived_from (info (on_info bare_peripheral p))) with (p_derived_from (info p)) by now destruct p.
      destruct (p_derived_from (info p)) as [s|]; [|now apply gets_ok].
      replace (ma_map (fun i => p_with i (p_registers i) None) (on_info bare_peripheral p))
        with (on_info bare_peripheral (ma_map (fun i => p_with i (p_registers i) None) p)) by now destruct p.
      apply bare_derive_peripheral. }
    intros [z o] _. cbv zeta. cbn [fst snd].
    replace (p_name (info (on_info bare_peripheral z))) with (p_name (info z)) by now destruct z.
    apply gets_bind with (h := on_info bare_peripheral).
    - replace (p_registers (info (on_info bare_peripheral z))) with (option_map (map bare_rc) (p_registers (info z))) by now destruct z.
      destruct (p_registers (info z)) as [rs|]; cbn [option_map]; [|now apply gets_ok].
      apply gets_bind with (h := map bare_rc).
      + apply gets_concat; [reflexivity|apply map_app|]. intros x _. apply bare_expand_rc.
      + intros l _. apply gets_ok. now destruct z.
    - intros x _. destruct x as [i|i d]; cbn [on_info]; [now apply gets_ok|]. apply gets_bind with (h := map bare_peripheral).
      + apply gets_mapM_same. intros n _. unfold peripheral_instance. cbn. apply gets_same. intros idx. apply gets_same. intros off. now apply gets_ok.
      + intros l _. apply gets_ok. now rewrite !map_map.
  Qed.
End Bare.

Lemma bare_expand m fuel d : gets bare_device (expand m fuel d) (expand m fuel (bare_device d)).
Proof.
  unfold expand. apply gets_bind with (h := bare_index); [apply bare_create|]. intros ix _.
  apply gets_bind with (h := map (on_info bare_peripheral)).
  - cbn [d_peripherals bare_device]. apply gets_concat; [reflexivity|apply map_app|]. intros p _. apply bare_expand_peripheral.
  - intros ps _. now apply gets_ok.
Qed.

(** ** With the properties filled in *)
Lemma bare_fill rc : forall q, expand_properties_rc q (bare_rc rc) = bare_rc (expand_properties_rc q rc).
Proof.
  induction rc as [r|c IH] using rc_tree_ind; intros q.
  - cbn. destruct r as [i|i d]; cbn; now destruct (r_derived_from i).
  - rewrite Forall_forall in IH. rewrite bare_rc_cluster. cbn [expand_properties_rc].
    assert (X : forall u, map (expand_properties_rc u) (map bare_rc (c_children (info c))) = map bare_rc (map (expand_properties_rc u) (c_children (info c)))).
    { intros u. rewrite !map_map. apply map_ext_in. intros x I. now apply IH. }
    clear IH. destruct c as [i|i d]; cbn in *; (destruct (c_derived_from i); cbn; [reflexivity|]; now rewrite X).
Qed.
Lemma bare_filled d : expand_properties (bare_device d) = bare_device (expand_properties d).
Proof.
  unfold expand_properties. cbn [d_peripherals d_default_properties bare_device d_set_peripherals].
  unfold bare_device, d_set_peripherals. cbn. f_equal. rewrite !map_map. apply map_ext. intros p.
  unfold expand_properties_peripheral. destruct p as [i|i e]; cbn; destruct (p_derived_from i); cbn; try reflexivity;
    (do 2 f_equal; [unfold bare_peripheral, p_with; cbn; f_equal; destruct (p_registers i) as [rs|]; [|reflexivity]; cbn; f_equal;
      rewrite !map_map; apply map_ext; intros x; apply bare_fill]).
Qed.
