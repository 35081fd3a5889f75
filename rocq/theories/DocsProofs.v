(** Explanatory texts changed before an expansion or after it. *)
From Verif Require Import Base BaseFacts TreeFacts Types Derive Arrays Expand Validate SpecArray SpecExpand SpecDocs InstanceProofs ArrayProofs SwapProofs.

Definition true_to {A B} (h : A -> B) (r : res A) (r' : res B) : Prop := r' = rmap h r.
Lemma tt_bind {A B C D} (h : A -> B) (k : C -> D) r r' f g : true_to h r r' -> (forall x, true_to k (f x) (g (h x))) ->
  true_to k (bind r f) (bind r' g).
Proof. intros G H. unfold true_to in *. rewrite G. destruct r as [x|e|p]; cbn; [apply H|reflexivity..]. Qed.
Lemma tt_ok {A B} (h : A -> B) x y : h x = y -> true_to h (Ok x) (Ok y).
Proof. now intros <-. Qed.
Lemma tt_err {A B} (h : A -> B) e : true_to h (Err e) (Err e).
Proof. reflexivity. Qed.
Lemma tt_same {A B C} (k : B -> C) (r : res A) f g : (forall x, true_to k (f x) (g x)) -> true_to k (bind r f) (bind r g).
Proof. intros H. destruct r; cbn; [apply H|reflexivity..]. Qed.
Lemma tt_concat {A B C D} (h : C -> D) (g : A -> B) f f' l :
  (forall x, In x l -> true_to (map h) (f x) (f' (g x))) -> true_to (map h) (concatM f l) (concatM f' (map g l)).
Proof.
  induction l as [|x l IH]; cbn [map concatM]; intros H; [now apply tt_ok|].
  apply tt_bind with (h := map h); [apply H; now left|]. intros a. apply tt_bind with (h := map h); [apply IH; intros y I; apply H; now right|].
  intros b. apply tt_ok. apply map_app.
Qed.
Lemma tt_concat_same {A C D} (h : C -> D) (f f' : A -> _) l :
  (forall x, In x l -> true_to (map h) (f x) (f' x)) -> true_to (map h) (concatM f l) (concatM f' l).
Proof. intros H. rewrite <- (map_id l) at 2. now apply tt_concat. Qed.
Lemma tt_mapM {A B C D} (h : C -> D) (g : A -> B) f f' l :
  (forall x, In x l -> true_to h (f x) (f' (g x))) -> true_to (map h) (mapM f l) (mapM f' (map g l)).
Proof.
  induction l as [|x l IH]; cbn [map mapM]; intros H; [now apply tt_ok|].
  apply tt_bind with (h := h); [apply H; now left|]. intros a. apply tt_bind with (h := map h); [apply IH; intros y I; apply H; now right|].
  intros b. now apply tt_ok.
Qed.
Lemma tt_mapM_same {A C D} (h : C -> D) (f f' : A -> _) l : (forall x, In x l -> true_to h (f x) (f' x)) -> true_to (map h) (mapM f l) (mapM f' l).
Proof. intros H. rewrite <- (map_id l) at 2. now apply tt_mapM. Qed.

Section Docs.
  Variable say : option string -> option string.
  Hypothesis Say : editing say.
  Lemma say_or a b : say (opt_or a b) = opt_or (say a) (say b).
  Proof. destruct Say as [N|(t & N & _)]; rewrite !N; [reflexivity|]. now destruct a. Qed.
  Lemma say_subst idx o : say (option_map (subst_index idx) o) = option_map (subst_index idx) (say o).
  Proof.
    destruct Say as [N|(t & N & F)]; rewrite !N; [reflexivity|]. destruct o as [s|]; [|reflexivity]. cbn. f_equal.
    eapply filled_unique; [apply F|]; apply subst_filled.
  Qed.
  Notation dim := (docs_dim say).
  Lemma docs_find d idx : dai_find (dim d) idx = option_map (docs_value say) (dai_find d idx).
  Proof.
    clear Say. unfold dai_find. cbn. destruct (de_array_index d) as [a|]; [|reflexivity]. cbn.
    induction (dai_values a) as [|e l IH]; [reflexivity|]. cbn. destruct (ev_value e) as [v|]; [|exact IH]. now destruct (seqb _ _).
  Qed.
  Lemma docs_name d n idx : instance_name (dim d) n idx = instance_name d n idx.
  Proof. unfold instance_name. rewrite docs_find. now destruct (dai_find d idx). Qed.
  Lemma docs_description d t idx : instance_description (dim d) (say t) idx = say (instance_description d t idx).
  Proof.
    unfold instance_description. rewrite docs_find, say_or, say_subst. destruct (dai_find d idx); [reflexivity|]. cbn.
    destruct Say as [N|(t' & N & _)]; rewrite !N; reflexivity.
  Qed.
  Lemma docs_names {A} (name : A -> string) f x : (forall i, name (f i) = name i) -> entry_names name (docs_any say f x) = entry_names name x.
  Proof.
    intros H. unfold entry_names. destruct x as [i|i d]; cbn; rewrite !H; [reflexivity|].
    replace (names (dim d) (name i)) with (names d (name i)); [reflexivity|]. unfold names. cbn. apply mapM_ext. intros n _.
    unfold index_at. cbn. destruct (match de_index d with Some l => _ | None => _ end); cbn; try reflexivity. now rewrite docs_name.
  Qed.
  Lemma docs_ma_derive {A} (name : A -> string) derive (h : A -> A) x y : (forall i, name (h i) = name i) ->
    (forall i j, derive (h i) (h j) = h (derive i j)) ->
    ma_derive name derive (docs_any say h x) (docs_any say h y) = docs_any say h (ma_derive name derive x y).
  Proof. intros N D. destruct x as [i|i d], y as [j|j e]; cbn; rewrite ?N, ?D; try reflexivity. now destruct (contains "%s" (name i)). Qed.

  Definition docs_cluster (c : cluster) : cluster := docs_any say (fun i => docs_block say i (map (docs_rc say) (c_children i))) c.
  Lemma docs_rc_cluster c : docs_rc say (RCCluster c) = RCCluster (docs_cluster c).
  Proof. now destruct c. Qed.
  Lemma docs_kids c : c_children (info (docs_cluster c)) = map (docs_rc say) (c_children (info c)).
  Proof. now destruct c. Qed.
  Notation dfield := (docs_any say (docs_field say)).
  Notation dregister := (docs_any say (docs_register say)).
  Notation dperipheral := (docs_any say (docs_peripheral say)).
  Definition docs_entry (e : entry) : entry :=
    match e with
    | InPeripheral k p => InPeripheral k (dperipheral p)
    | InCluster k c => InCluster k (docs_cluster c)
    | InRegister k r => InRegister k (dregister r)
    | InField k f => InField k (dfield f)
    | InEnum k e => InEnum k (docs_values say e)
    end.
  Notation docs_index := (map docs_entry).

  Lemma docs_field_at fp f : field_at fp (dfield f) = docs_index (field_at fp f).
  Proof.
    unfold field_at. rewrite map_app. f_equal.
    replace (f_enumerated_values (info (dfield f))) with (map (docs_values say) (f_enumerated_values (info f))) by now destruct f.
    induction (f_enumerated_values (info f)) as [|e l IH]; [reflexivity|]. cbn. rewrite map_app, <- IH. f_equal.
    now destruct (evs_name e).
  Qed.
  Lemma docs_add_field path f : true_to docs_index (add_field path f) (add_field path (dfield f)).
  Proof.
    unfold add_field. rewrite docs_names by reflexivity. apply tt_same. intros ns. apply tt_ok.
    induction ns as [|n ns IH]; cbn [flat_map]; [reflexivity|]. rewrite map_app, IH. f_equal. symmetry. apply docs_field_at.
  Qed.
  Lemma docs_fields_iter r : r_fields_iter (info (dregister r)) = map dfield (r_fields_iter (info r)).
  Proof. destruct r as [i|i d]; cbn; unfold r_fields_iter; cbn; now destruct (r_fields i). Qed.
  Lemma docs_register_at rg r : true_to docs_index (register_at rg r) (register_at rg (dregister r)).
  Proof.
    unfold register_at. rewrite docs_fields_iter. apply tt_bind with (h := docs_index).
    - apply tt_concat. intros f _. apply docs_add_field.
    - intros x. apply tt_ok. now rewrite map_app.
  Qed.
  Lemma docs_add_register path r : true_to docs_index (add_register path r) (add_register path (dregister r)).
  Proof.
    unfold add_register. rewrite docs_names by reflexivity. apply tt_same. intros ns. apply tt_concat_same.
    intros n _. apply docs_register_at.
  Qed.
  Lemma docs_add_rc rc : forall path, true_to docs_index (add_rc path rc) (add_rc path (docs_rc say rc)).
  Proof.
    induction rc as [r|c IH] using rc_tree_ind; intros path; [apply docs_add_register|].
    rewrite Forall_forall in IH. rewrite docs_rc_cluster. cbn [add_rc]. unfold docs_cluster at 1. rewrite docs_names by reflexivity.
    apply tt_same. intros ns. apply tt_concat_same. intros n _. cbv zeta. rewrite docs_kids.
    apply tt_bind with (h := docs_index); [|intros a; apply tt_bind with (h := docs_index); [|intros b; apply tt_ok]].
    - apply tt_concat. intros x I. pose proof (IH x I (new_cluster path n)) as B. destruct x as [r|x]; [exact B|].
      rewrite docs_rc_cluster. now apply tt_ok.
    - apply tt_concat. intros x I. pose proof (IH x I (new_cluster path n)) as B. destruct x as [r|x]; [now apply tt_ok|].
      rewrite docs_rc_cluster in *. exact B.
    - now rewrite !map_app.
  Qed.
  Lemma docs_registers l : rc_registers (map (docs_rc say) l) = map dregister (rc_registers l).
  Proof. induction l as [|[r|c] l IH]; cbn [map rc_registers]; [reflexivity|cbn; now rewrite IH|]. now rewrite docs_rc_cluster. Qed.
  Lemma docs_clusters l : rc_clusters (map (docs_rc say) l) = map docs_cluster (rc_clusters l).
  Proof. induction l as [|[r|c] l IH]; cbn [map rc_clusters]; [reflexivity|exact IH|]. rewrite docs_rc_cluster. cbn. now rewrite IH. Qed.
  Lemma docs_children p : p_children (info (dperipheral p)) = map (docs_rc say) (p_children (info p)).
  Proof. destruct p as [i|i d]; cbn; unfold p_children; cbn; now destruct (p_registers i). Qed.
  Lemma docs_add_peripheral p : true_to docs_index (add_peripheral p) (add_peripheral (dperipheral p)).
  Proof.
    unfold add_peripheral. rewrite docs_names by reflexivity. apply tt_same. intros ns. apply tt_concat_same. intros n _. cbv zeta.
    rewrite docs_children, docs_registers, docs_clusters.
    apply tt_bind with (h := docs_index); [|intros a; apply tt_bind with (h := docs_index); [|intros b; apply tt_ok]].
    - apply tt_concat. intros r _. apply docs_add_register.
    - apply tt_concat. intros c _. rewrite <- docs_rc_cluster. apply docs_add_rc.
    - now rewrite !map_app.
  Qed.
  Lemma docs_create d : true_to docs_index (index_create d) (index_create (docs_device say d)).
  Proof. unfold index_create. cbn [d_peripherals docs_device]. apply tt_concat. intros p _. apply docs_add_peripheral. Qed.

  Lemma lookup_docs {A} (f : entry -> option A) (h : A -> A) ix : (forall e, f (docs_entry e) = option_map h (f e)) ->
    lookup f (docs_index ix) = option_map h (lookup f ix).
  Proof. intros H. induction ix as [|e ix IH]; [reflexivity|]. cbn [map lookup]. rewrite H, IH. now destruct (lookup f ix). Qed.

  Section Look.
  Variable m : mode.
  Variable ix : index.
  Notation ix' := (docs_index ix).
  Lemma docs_ix_peripheral q : ix_peripheral ix' q = option_map dperipheral (ix_peripheral ix q).
  Proof. apply lookup_docs. intros []; cbn; try reflexivity. now destruct (bp_eqb path q). Qed.
  Lemma docs_ix_cluster q : ix_cluster ix' q = option_map docs_cluster (ix_cluster ix q).
  Proof. apply lookup_docs. intros []; cbn; try reflexivity. now destruct (bp_eqb path q). Qed.
  Lemma docs_ix_register q : ix_register ix' q = option_map dregister (ix_register ix q).
  Proof. apply lookup_docs. intros []; cbn; try reflexivity. now destruct (rg_eqb path q). Qed.
  Lemma docs_ix_field q : ix_field ix' q = option_map dfield (ix_field ix q).
  Proof. apply lookup_docs. intros []; cbn; try reflexivity. now destruct (fp_eqb path q). Qed.
  Lemma docs_ix_enum q : ix_enum ix' q = option_map (docs_values say) (ix_enum ix q).
  Proof. apply lookup_docs. intros []; cbn; try reflexivity. now destruct (ep_eqb path q). Qed.

  Lemma docs_field_derive i j : field_derive (docs_field say i) (docs_field say j) = docs_field say (field_derive i j).
  Proof. unfold field_derive, docs_field. cbn. rewrite say_or. f_equal. now destruct (f_enumerated_values i). Qed.
  Lemma docs_register_derive i j : register_derive (docs_register say i) (docs_register say j) = docs_register say (register_derive i j).
  Proof. unfold register_derive, docs_register. cbn. rewrite say_or. f_equal. now destruct (r_fields i). Qed.
  Lemma docs_peripheral_derive i j : peripheral_derive (docs_peripheral say i) (docs_peripheral say j) = docs_peripheral say (peripheral_derive i j).
  Proof.
    unfold peripheral_derive, docs_peripheral. cbn. rewrite !say_or. f_equal; [now destruct (p_interrupt i)|now destruct (p_registers i)].
  Qed.
  Lemma docs_cluster_derive c d : cluster_ma_derive (docs_cluster c) (docs_cluster d) = docs_cluster (cluster_ma_derive c d).
  Proof.
    unfold cluster_ma_derive, docs_cluster. apply docs_ma_derive; [reflexivity|]. intros i j. unfold cluster_derive, docs_block, list_or. cbn. f_equal.
    now destruct (c_children i).
  Qed.
  Lemma docs_register_ma x y : register_ma_derive (dregister x) (dregister y) = dregister (register_ma_derive x y).
  Proof. apply docs_ma_derive; [reflexivity|apply docs_register_derive]. Qed.
  Lemma docs_field_ma x y : field_ma_derive (dfield x) (dfield y) = dfield (field_ma_derive x y).
  Proof. apply docs_ma_derive; [reflexivity|apply docs_field_derive]. Qed.
  Lemma docs_peripheral_ma x y : peripheral_ma_derive (dperipheral x) (dperipheral y) = dperipheral (peripheral_ma_derive x y).
  Proof. apply docs_ma_derive; [reflexivity|apply docs_peripheral_derive]. Qed.
  Lemma docs_values_derive i j : evs_derive (docs_values say i) (docs_values say j) = docs_values say (evs_derive i j).
  Proof. unfold evs_derive, docs_values. cbn. f_equal. now destruct (evs_values i). Qed.

  Lemma docs_derive_peripheral k : forall p dpath,
    true_to (fun q => (dperipheral (fst q), snd q)) (derive_peripheral ix k p dpath) (derive_peripheral ix' k (dperipheral p) dpath).
  Proof.
    induction k as [|k IH]; intros p dpath; cbn [derive_peripheral]; [reflexivity|].
    replace (p_name (info (dperipheral p))) with (p_name (info p)) by now destruct p.
    destruct (seqb dpath _); [reflexivity|]. cbv zeta. rewrite docs_ix_peripheral.
    destruct (ix_peripheral ix _) as [d|]; cbn [ok_or option_map bind]; [|reflexivity].
    rewrite docs_peripheral_ma.
    replace (p_derived_from (info (dperipheral d))) with (p_derived_from (info d)) by now destruct d.
    destruct (p_derived_from (info d)); [apply IH|]. apply tt_ok. cbn. f_equal.
    replace (is_none (p_registers (info (dperipheral p)))) with (is_none (p_registers (info p))); [reflexivity|].
    destruct p as [i|i e]; cbn; now destruct (p_registers i).
  Qed.
  Lemma docs_derive_cluster k : forall c dpath path,
    true_to (fun q => (docs_cluster (fst q), snd q)) (derive_cluster ix k c dpath path) (derive_cluster ix' k (docs_cluster c) dpath path).
  Proof.
    induction k as [|k IH]; intros c dpath path; cbn [derive_cluster]; [reflexivity|].
    apply tt_same. intros [b n]. cbv zeta. cbn [fst snd].
    replace (c_name (info (docs_cluster c))) with (c_name (info c)) by now destruct c.
    destruct (bp_eqb _ _ && seqb _ _); [reflexivity|]. rewrite docs_ix_cluster. destruct (ix_cluster ix _) as [d|]; cbn [ok_or option_map bind]; [|reflexivity].
    rewrite docs_cluster_derive.
    replace (c_derived_from (info (docs_cluster d))) with (c_derived_from (info d)) by now destruct d.
    destruct (c_derived_from (info d)); [apply IH|]. apply tt_ok. cbn. f_equal. rewrite docs_kids. now destruct (c_children (info c)).
  Qed.
  Lemma docs_derive_register k : forall r dpath path,
    true_to (fun q => (dregister (fst q), snd q)) (derive_register ix k r dpath path) (derive_register ix' k (dregister r) dpath path).
  Proof.
    induction k as [|k IH]; intros r dpath path; cbn [derive_register]; [reflexivity|].
    apply tt_same. intros [b n]. cbv zeta. cbn [fst snd].
    replace (r_name (info (dregister r))) with (r_name (info r)) by now destruct r.
    destruct (bp_eqb _ _ && seqb _ _); [reflexivity|]. rewrite docs_ix_register. destruct (ix_register ix _) as [d|]; cbn [ok_or option_map bind]; [|reflexivity].
    rewrite docs_register_ma.
    replace (r_derived_from (info (dregister d))) with (r_derived_from (info d)) by now destruct d.
    destruct (r_derived_from (info d)); [apply IH|]. apply tt_ok. cbn. f_equal.
    replace (is_none (r_fields (info (dregister r)))) with (is_none (r_fields (info r))); [reflexivity|].
    destruct r as [i|i e]; cbn; now destruct (r_fields i).
  Qed.
  Lemma docs_derive_field k : forall f dpath path,
    true_to (fun q => (dfield (fst q), snd q)) (derive_field ix k f dpath path) (derive_field ix' k (dfield f) dpath path).
  Proof.
    induction k as [|k IH]; intros f dpath path; cbn [derive_field]; [reflexivity|].
    apply tt_same. intros [b n]. cbv zeta. cbn [fst snd].
    replace (f_name (info (dfield f))) with (f_name (info f)) by now destruct f.
    destruct (rg_eqb _ _ && seqb _ _); [reflexivity|]. rewrite docs_ix_field. destruct (ix_field ix _) as [d|]; cbn [ok_or option_map bind]; [|reflexivity].
    rewrite docs_field_ma.
    replace (f_derived_from (info (dfield d))) with (f_derived_from (info d)) by now destruct d.
    destruct (f_derived_from (info d)); [apply IH|]. apply tt_ok. cbn. f_equal.
    replace (is_nil (f_enumerated_values (info (dfield f)))) with (is_nil (f_enumerated_values (info f))); [reflexivity|].
    destruct f as [i|i e]; cbn; now destruct (f_enumerated_values i).
  Qed.
  Notation found := (fun q => (docs_values say (fst q), snd q)).
  Lemma docs_in_fields rg n fs : enum_in_fields ix' rg n (map dfield fs) = option_map found (enum_in_fields ix rg n fs).
  Proof.
    induction fs as [|f fs IH]; [reflexivity|]. cbn [map enum_in_fields]. cbv zeta.
    replace (f_name (info (dfield f))) with (f_name (info f)) by now destruct f.
    rewrite docs_ix_enum. destruct (ix_enum ix _); [reflexivity|exact IH].
  Qed.
  Lemma docs_derive_enum k : forall ev dpath fpath,
    true_to found (derive_enum ix k ev dpath fpath) (derive_enum ix' k (docs_values say ev) dpath fpath).
  Proof.
    induction k as [|k IH]; intros ev dpath fpath; cbn [derive_enum]; [reflexivity|].
    cbn [evs_name docs_values]. destruct (is_name dpath (evs_name ev)); [reflexivity|].
    apply tt_same. intros [i n]. cbv zeta. cbn [fst snd].
    apply tt_bind with (h := option_map found).
    - destruct (pop i) as [[v fd]|].
      + apply tt_same. intros q. destruct (fp_eqb q fpath && _); [reflexivity|]. apply tt_ok. rewrite docs_ix_enum. now destruct (ix_enum ix _).
      + apply tt_ok. rewrite docs_ix_register. destruct (ix_register ix _) as [r|]; [|reflexivity]. cbn [option_map].
        now rewrite docs_fields_iter, docs_in_fields.
    - intros [[d ep]|]; cbn [option_map fst snd]; [|reflexivity]. cbn [evs_derived_from docs_values]. rewrite docs_values_derive.
      destruct (evs_derived_from d) as [s|]; [|now apply tt_ok]. apply IH.
  Qed.
  Lemma docs_expand_enum k fpath ev : true_to (docs_values say) (expand_enum ix k fpath ev) (expand_enum ix' k fpath (docs_values say ev)).
  Proof.
    unfold expand_enum. cbn [evs_derived_from docs_values]. destruct (evs_derived_from ev) as [s|].
    - eapply tt_bind; [apply (docs_derive_enum k (evs_underive ev))|]. intros [x y]. now apply tt_ok.
    - now apply tt_ok.
  Qed.
  Lemma docs_expand_field k path f : true_to (map dfield) (expand_field m ix k path f) (expand_field m ix' k path (dfield f)).
  Proof.
    unfold expand_field. apply tt_bind with (h := fun q => (dfield (fst q), snd q)).
    { replace (f_derived_from (info (dfield f))) with (f_derived_from (info f)) by now destruct f.
      destruct (f_derived_from (info f)) as [s|]; [|now apply tt_ok].
      replace (ma_map f_underive (dfield f)) with (dfield (ma_map f_underive f)) by now destruct f.
      apply docs_derive_field. }
    intros [z o]. cbv zeta. cbn [fst snd].
    replace (f_name (info (dfield z))) with (f_name (info z)) by now destruct z.
    replace (f_enumerated_values (info (dfield z))) with (map (docs_values say) (f_enumerated_values (info z))) by now destruct z.
    apply tt_bind with (h := map (docs_values say)); [apply tt_mapM; intros e _; apply docs_expand_enum|]. intros evs.
    destruct z as [i|i d]; cbn [ma_map docs_any]; [now apply tt_ok|].
    apply tt_bind with (h := map (docs_field say)).
    - apply tt_mapM_same. intros n _. unfold field_instance. cbn [f_bit_range f_set_enums docs_field].
      change (index_at (dim d) n) with (index_at d n). apply tt_same. intros idx.
      change (offset_at m ?b (dim d) n) with (offset_at m b d n). apply tt_same. intros off. apply tt_ok.
      unfold docs_field. cbn. now rewrite docs_name, docs_description.
    - intros l. apply tt_ok. now rewrite !map_map.
  Qed.
  Lemma docs_expand_register k path r :
    true_to (map (docs_rc say)) (expand_register_array m ix k path r) (expand_register_array m ix' k path (dregister r)).
  Proof.
    unfold expand_register_array. apply tt_bind with (h := fun q => (dregister (fst q), snd q)).
    { replace (r_derived_from (info (dregister r))) with (r_derived_from (info r)) by now destruct r.
      destruct (r_derived_from (info r)) as [s|]; [|now apply tt_ok].
      replace (ma_map r_underive (dregister r)) with (dregister (ma_map r_underive r)) by now destruct r.
      apply docs_derive_register. }
    intros [z o]. cbv zeta. cbn [fst snd].
    replace (r_name (info (dregister z))) with (r_name (info z)) by now destruct z.
    set (rpath := opt_default _ _).
    apply tt_bind with (h := dregister).
    - replace (r_fields (info (dregister z))) with (option_map (map dfield) (r_fields (info z))) by now destruct z.
      destruct (r_fields (info z)) as [fs|]; cbn [option_map]; [|now apply tt_ok].
      apply tt_bind with (h := map dfield).
      + apply tt_concat. intros f _. apply docs_expand_field.
      + intros l. apply tt_ok. now destruct z.
    - intros x. destruct x as [i|i d]; cbn [docs_any]; [now apply tt_ok|]. apply tt_bind with (h := map (docs_register say)).
      + apply tt_mapM_same. intros n _. unfold register_instance. cbn [r_address_offset docs_register].
        change (index_at (dim d) n) with (index_at d n). apply tt_same. intros idx.
        change (offset_at m ?b (dim d) n) with (offset_at m b d n). apply tt_same. intros off. apply tt_ok.
        unfold docs_register. cbn. now rewrite docs_name, docs_description, say_subst.
      + intros l. apply tt_ok. now rewrite !map_map.
  Qed.
  Lemma docs_expand_cluster (c c' : cluster_info) : c_name c' = c_name c -> c_address_offset c' = c_address_offset c ->
    c_children c' = map (docs_rc say) (c_children c) -> true_to (map (docs_rc say)) (expand_cluster m c) (expand_cluster m c').
  Proof.
    intros N O C. unfold expand_cluster. rewrite C, N, O. apply tt_mapM. intros x _. destruct x as [r|x]; [|rewrite docs_rc_cluster; reflexivity].
    cbn [docs_rc]. replace (r_address_offset (info (dregister r))) with (r_address_offset (info r)) by now destruct r.
    apply tt_same. intros off. apply tt_ok. now destruct r.
  Qed.
  Lemma docs_expand_rc k : forall path rc, true_to (map (docs_rc say)) (expand_rc m ix k path rc) (expand_rc m ix' k path (docs_rc say rc)).
  Proof.
    induction k as [|k IH]; intros path rc; [reflexivity|]. destruct rc as [r|c]; [apply docs_expand_register|].
    rewrite docs_rc_cluster. cbn [expand_rc]. apply tt_bind with (h := fun q => (docs_cluster (fst q), snd q)).
    { assert (N : c_derived_from (info (docs_cluster c)) = c_derived_from (info c)) by now destruct c.
      unfold cluster_info, cluster in *. rewrite N. clear N.
      destruct (c_derived_from (info c)) as [s|]; [|now apply tt_ok].
      pose proof (docs_derive_cluster k (ma_map (fun i => c_with i (c_children i) None) c) s path) as B.
      destruct c; exact B. }
    intros [z o]. cbv zeta. cbn [fst snd]. rewrite docs_kids.
    replace (c_name (info (docs_cluster z))) with (c_name (info z)) by now destruct z.
    apply tt_bind with (h := map (docs_rc say)); [apply tt_concat; intros x _; apply IH|].
    intros kids. destruct z as [i|i d]; cbn [docs_cluster docs_any ma_map].
    - now apply docs_expand_cluster.
    - apply tt_concat_same. intros n _. unfold cluster_instance.
      cbn [c_name c_address_offset c_with docs_block c_description c_alternate_cluster c_header_struct_name c_default_properties c_children c_derived_from].
      change (index_at (dim d) n) with (index_at d n). rewrite !bind_assoc. apply tt_same. intros idx.
      change (offset_at m ?b (dim d) n) with (offset_at m b d n). rewrite !bind_assoc. apply tt_same. intros off. cbn [bind].
      apply docs_expand_cluster; cbn; [apply docs_name|reflexivity..].
  Qed.
  Lemma docs_expand_peripheral k p :
    true_to (map dperipheral) (expand_peripheral m ix k p) (expand_peripheral m ix' k (dperipheral p)).
  Proof.
    unfold expand_peripheral. apply tt_bind with (h := fun q => (dperipheral (fst q), snd q)).
    { replace (p_derived_from (info (dperipheral p))) with (p_derived_from (info p)) by now destruct p.
      destruct (p_derived_from (info p)) as [s|]; [|now apply tt_ok].
      replace (ma_map (fun i => p_with i (p_registers i) None) (dperipheral p))
        with (dperipheral (ma_map (fun i => p_with i (p_registers i) None) p)) by now destruct p.
      apply docs_derive_peripheral. }
    intros [z o]. cbv zeta. cbn [fst snd].
    replace (p_name (info (dperipheral z))) with (p_name (info z)) by now destruct z.
    apply tt_bind with (h := dperipheral).
    - replace (p_registers (info (dperipheral z))) with (option_map (map (docs_rc say)) (p_registers (info z))) by now destruct z.
      destruct (p_registers (info z)) as [rs|]; cbn [option_map]; [|now apply tt_ok].
      apply tt_bind with (h := map (docs_rc say)).
      + apply tt_concat. intros x _. apply docs_expand_rc.
      + intros l. apply tt_ok. now destruct z.
    - intros x. destruct x as [i|i d]; cbn [docs_any]; [now apply tt_ok|]. apply tt_bind with (h := map (docs_peripheral say)).
      + apply tt_mapM_same. intros n _. unfold peripheral_instance. cbn [p_base_address docs_peripheral].
        change (index_at (dim d) n) with (index_at d n). apply tt_same. intros idx.
        change (base_at m ?b (dim d) n) with (base_at m b d n). apply tt_same. intros off. apply tt_ok.
        unfold docs_peripheral. cbn. now rewrite docs_name, docs_description, say_subst.
      + intros l. apply tt_ok. now rewrite !map_map.
  Qed.
  End Look.

  Lemma docs_expand m fuel d : true_to (docs_device say) (expand m fuel d) (expand m fuel (docs_device say d)).
  Proof.
    unfold expand. apply tt_bind with (h := docs_index); [apply docs_create|]. intros ix.
    apply tt_bind with (h := map dperipheral).
    - cbn [d_peripherals docs_device]. apply tt_concat. intros p _. apply docs_expand_peripheral.
    - intros ps. now apply tt_ok.
  Qed.
End Docs.

(** ** Validation and properties *)
Lemma iterM_of {A B} (f : B -> res unit) (g : A -> B) l : iterM f (map g l) = iterM (fun x => f (g x)) l.
Proof. induction l as [|x l IH]; cbn; [reflexivity|now rewrite IH]. Qed.
Lemma iterM_docs {A} (f : A -> res unit) (g : A -> A) l : (forall x, In x l -> f (g x) = f x) -> iterM f (map g l) = iterM f l.
Proof. intros H. rewrite iterM_of. now apply iterM_ext. Qed.
Lemma is_nil_map {A B} (f : A -> B) l : is_nil (map f l) = is_nil l.
Proof. now destruct l. Qed.

Section Valid.
  Variable say : option string -> option string.
  Variable l : level.
  Lemma valid_values e : evs_validate_all l (docs_values say e) = evs_validate_all l e.
  Proof.
    unfold evs_validate_all, evs_validate. cbn. rewrite is_nil_map. rewrite iterM_docs; [reflexivity|]. reflexivity.
  Qed.
  Lemma valid_range a b e : evs_check_range a b (docs_values say e) = evs_check_range a b e.
  Proof. unfold evs_check_range. cbn. now apply iterM_docs. Qed.
  Lemma valid_field f : field_validate_all l (docs_any say (docs_field say) f) = field_validate_all l f.
  Proof.
    unfold field_validate_all, ma_validate_all.
    assert (X : forall i, field_info_validate_all l (docs_field say i) = field_info_validate_all l i).
    { intros i. unfold field_info_validate_all. cbn [f_enumerated_values docs_field]. rewrite iterM_docs by (intros; apply valid_values).
      destruct (iterM _ _); cbn [bind]; [|reflexivity..]. unfold field_validate.
      cbn [f_bit_range f_enumerated_values f_name f_derived_from f_write_constraint docs_field].
      rewrite iterM_docs by (intros; apply valid_range).
      destruct (f_enumerated_values i) as [|e1 [|e2 [|e3 r]]]; reflexivity. }
    destruct f as [i|i d]; cbn; apply X.
  Qed.
  Lemma valid_register r : register_validate_all l (docs_any say (docs_register say) r) = register_validate_all l r.
  Proof.
    unfold register_validate_all, ma_validate_all.
    assert (X : forall i, register_info_validate_all l (docs_register say i) = register_info_validate_all l i).
    { intros i. unfold register_info_validate_all. cbn [r_properties docs_register].
      replace (r_fields_iter (docs_register say i)) with (map (docs_any say (docs_field say)) (r_fields_iter i))
        by (unfold r_fields_iter; cbn; now destruct (r_fields i)).
      rewrite iterM_docs by (intros; apply valid_field). unfold register_validate. cbn. destruct (r_fields i) as [fs|]; [|reflexivity].
      cbn. now rewrite is_nil_map. }
    destruct r as [i|i d]; cbn; apply X.
  Qed.
  Lemma valid_rc rc : rc_validate_all l (docs_rc say rc) = rc_validate_all l rc.
  Proof.
    induction rc as [r|c IH] using rc_tree_ind; [apply valid_register|]. rewrite Forall_forall in IH.
    rewrite docs_rc_cluster. cbn [rc_validate_all]. rewrite docs_kids.
    assert (A : iterM (fun x => match x with RCRegister _ => rc_validate_all l x | _ => Ok tt end) (map (docs_rc say) (c_children (info c))) =
                iterM (fun x => match x with RCRegister _ => rc_validate_all l x | _ => Ok tt end) (c_children (info c))).
    { apply iterM_docs. intros x I. specialize (IH x I). destruct x as [r|x]; [exact IH|]. now rewrite docs_rc_cluster. }
    assert (B : iterM (fun x => match x with RCCluster _ => rc_validate_all l x | _ => Ok tt end) (map (docs_rc say) (c_children (info c))) =
                iterM (fun x => match x with RCCluster _ => rc_validate_all l x | _ => Ok tt end) (c_children (info c))).
    { apply iterM_docs. intros x I. specialize (IH x I). destruct x as [r|x]; [reflexivity|]. rewrite docs_rc_cluster in *. exact IH. }
    unfold cluster_info, cluster in *. rewrite A, B. destruct c as [i|i d]; cbn; unfold cluster_validate; cbn; now rewrite is_nil_map.
  Qed.
  Lemma valid_peripheral p : peripheral_validate_all l (docs_any say (docs_peripheral say) p) = peripheral_validate_all l p.
  Proof.
    assert (X : forall i, peripheral_info_validate_all l (docs_peripheral say i) = peripheral_info_validate_all l i).
    { intros i. unfold peripheral_info_validate_all. cbn [p_address_block p_interrupt p_default_properties docs_peripheral].
      rewrite iterM_docs by reflexivity.
      replace (p_children (docs_peripheral say i)) with (map (docs_rc say) (p_children i)) by (unfold p_children; cbn; now destruct (p_registers i)).
      rewrite docs_registers, docs_clusters. rewrite !iterM_docs; [| |intros; apply valid_register].
      - unfold peripheral_validate. cbn. destruct (p_registers i) as [rs|]; [|reflexivity]. cbn. now rewrite is_nil_map.
      - intros c _. unfold cluster_validate_all. rewrite <- docs_rc_cluster. apply valid_rc. }
    unfold peripheral_validate_all, ma_validate_all. destruct p as [i|i d]; cbn; apply X.
  Qed.
  Lemma docs_valid d : device_validate_all l (docs_device say d) = device_validate_all l d.
  Proof.
    unfold device_validate_all. cbn [d_cpu d_default_properties d_peripherals docs_device]. rewrite iterM_docs by (intros; apply valid_peripheral).
    unfold device_validate. cbn. now rewrite is_nil_map.
  Qed.
  Lemma docs_fill rc : forall q, expand_properties_rc q (docs_rc say rc) = docs_rc say (expand_properties_rc q rc).
  Proof.
    induction rc as [r|c IH] using rc_tree_ind; intros q.
    - cbn. destruct r as [i|i d]; cbn; now destruct (r_derived_from i).
    - rewrite Forall_forall in IH. rewrite docs_rc_cluster. cbn [expand_properties_rc].
      assert (X : forall u, map (expand_properties_rc u) (map (docs_rc say) (c_children (info c))) = map (docs_rc say) (map (expand_properties_rc u) (c_children (info c)))).
      { intros u. rewrite !map_map. apply map_ext_in. intros x I. now apply IH. }
      clear IH. destruct c as [i|i d]; cbn in *; (destruct (c_derived_from i) eqn:E; cbn; [reflexivity|]; unfold docs_block, c_with; cbn; now rewrite X).
  Qed.
  Lemma docs_filled d : expand_properties (docs_device say d) = docs_device say (expand_properties d).
  Proof.
    unfold expand_properties. cbn [d_peripherals d_default_properties docs_device d_set_peripherals].
    unfold docs_device, d_set_peripherals. cbn. f_equal. rewrite !map_map. apply map_ext. intros p.
    unfold expand_properties_peripheral. destruct p as [i|i e]; cbn; destruct (p_derived_from i) eqn:E; cbn; rewrite ?E; try reflexivity;
      (f_equal; unfold docs_peripheral, p_with; cbn; f_equal; destruct (p_registers i) as [rs|]; [|reflexivity]; cbn; f_equal;
        rewrite !map_map; apply map_ext; intros x; apply docs_fill).
  Qed.
End Valid.

Lemma silent : editing (fun _ => None).
Proof. now left. Qed.
Lemma texts_expand m fuel d e : same_but_texts d e ->
  match expand m fuel d, expand m fuel e with
  | Ok d', Ok e' => same_but_texts d' e'
  | Err x, Err y => x = y
  | Panic x, Panic y => x = y
  | _, _ => False
  end.
Proof.
  intros H. pose proof (docs_expand _ silent m fuel d) as D. pose proof (docs_expand _ silent m fuel e) as E. unfold true_to in *.
  unfold same_but_texts in *. rewrite H in D. rewrite D in E. destruct (expand m fuel d), (expand m fuel e); cbn in E; try discriminate; congruence.
Qed.
Lemma texts_valid l d e : same_but_texts d e -> device_validate_all l d = device_validate_all l e.
Proof. intros H. rewrite <- (docs_valid (fun _ => None) l d), <- (docs_valid (fun _ => None) l e). now rewrite H. Qed.
