(** Addresses, bit positions and array steps changed before an expansion. *)
From Verif Require Import Base BaseFacts TreeFacts Types Derive Arrays Expand Validate SpecExpand SpecPlaces ArrayProofs SwapProofs DocsProofs.

Lemma loose_find d idx : dai_find (loose_dim d) idx = dai_find d idx.
Proof. reflexivity. Qed.
Lemma loose_names {A} (name : A -> string) f x : (forall i, name (f i) = name i) -> entry_names name (loose_any f x) = entry_names name x.
Proof. intros H. unfold entry_names. destruct x as [i|i d]; cbn; now rewrite !H. Qed.
Lemma loose_ma_derive {A} (name : A -> string) derive (h : A -> A) x y : (forall i, name (h i) = name i) ->
  (forall i j, derive (h i) (h j) = h (derive i j)) ->
  ma_derive name derive (loose_any h x) (loose_any h y) = loose_any h (ma_derive name derive x y).
Proof. intros N D. destruct x as [i|i d], y as [j|j e]; cbn; rewrite ?N, ?D; try reflexivity. now destruct (contains "%s" (name i)). Qed.

Definition loose_cluster (c : cluster) : cluster := loose_any (fun i => loose_block i (map (loose_rc) (c_children i))) c.
Lemma loose_rc_cluster c : loose_rc (RCCluster c) = RCCluster (loose_cluster c).
Proof. now destruct c. Qed.
Lemma loose_kids c : c_children (info (loose_cluster c)) = map (loose_rc) (c_children (info c)).
Proof. now destruct c. Qed.
Notation dfield := (loose_any (loose_field)).
Notation dregister := (loose_any (loose_register)).
Notation dperipheral := (loose_any (loose_peripheral)).
Definition loose_entry (e : entry) : entry :=
  match e with
  | InPeripheral k p => InPeripheral k (dperipheral p)
  | InCluster k c => InCluster k (loose_cluster c)
  | InRegister k r => InRegister k (dregister r)
  | InField k f => InField k (dfield f)
  | InEnum k e => InEnum k e
  end.
Notation loose_index := (map loose_entry).

Lemma loose_field_at fp f : field_at fp (dfield f) = loose_index (field_at fp f).
Proof.
  unfold field_at. rewrite map_app. f_equal.
  replace (f_enumerated_values (info (dfield f))) with (f_enumerated_values (info f)) by now destruct f.
  induction (f_enumerated_values (info f)) as [|e l IH]; [reflexivity|]. cbn. rewrite map_app, <- IH. f_equal.
  now destruct (evs_name e).
Qed.
Lemma loose_add_field path f : true_to loose_index (add_field path f) (add_field path (dfield f)).
Proof.
  unfold add_field. rewrite loose_names by reflexivity. apply tt_same. intros ns. apply tt_ok.
  induction ns as [|n ns IH]; cbn [flat_map]; [reflexivity|]. rewrite map_app, IH. f_equal. symmetry. apply loose_field_at.
Qed.
Lemma loose_fields_iter r : r_fields_iter (info (dregister r)) = map dfield (r_fields_iter (info r)).
Proof. destruct r as [i|i d]; cbn; unfold r_fields_iter; cbn; now destruct (r_fields i). Qed.
Lemma loose_register_at rg r : true_to loose_index (register_at rg r) (register_at rg (dregister r)).
Proof.
  unfold register_at. rewrite loose_fields_iter. apply tt_bind with (h := loose_index).
  - apply tt_concat. intros f _. apply loose_add_field.
  - intros x. apply tt_ok. now rewrite map_app.
Qed.
Lemma loose_add_register path r : true_to loose_index (add_register path r) (add_register path (dregister r)).
Proof.
  unfold add_register. rewrite loose_names by reflexivity. apply tt_same. intros ns. apply tt_concat_same.
  intros n _. apply loose_register_at.
Qed.
Lemma loose_add_rc rc : forall path, true_to loose_index (add_rc path rc) (add_rc path (loose_rc rc)).
Proof.
  induction rc as [r|c IH] using rc_tree_ind; intros path; [apply loose_add_register|].
  rewrite Forall_forall in IH. rewrite loose_rc_cluster. cbn [add_rc]. unfold loose_cluster at 1. rewrite loose_names by reflexivity.
  apply tt_same. intros ns. apply tt_concat_same. intros n _. cbv zeta. rewrite loose_kids.
  apply tt_bind with (h := loose_index); [|intros a; apply tt_bind with (h := loose_index); [|intros b; apply tt_ok]].
  - apply tt_concat. intros x I. pose proof (IH x I (new_cluster path n)) as B. destruct x as [r|x]; [exact B|].
    rewrite loose_rc_cluster. now apply tt_ok.
  - apply tt_concat. intros x I. pose proof (IH x I (new_cluster path n)) as B. destruct x as [r|x]; [now apply tt_ok|].
    rewrite loose_rc_cluster in *. exact B.
  - now rewrite !map_app.
Qed.
Lemma loose_registers l : rc_registers (map (loose_rc) l) = map dregister (rc_registers l).
Proof. induction l as [|[r|c] l IH]; cbn [map rc_registers]; [reflexivity|cbn; now rewrite IH|]. now rewrite loose_rc_cluster. Qed.
Lemma loose_clusters l : rc_clusters (map (loose_rc) l) = map loose_cluster (rc_clusters l).
Proof. induction l as [|[r|c] l IH]; cbn [map rc_clusters]; [reflexivity|exact IH|]. rewrite loose_rc_cluster. cbn. now rewrite IH. Qed.
Lemma loose_children p : p_children (info (dperipheral p)) = map (loose_rc) (p_children (info p)).
Proof. destruct p as [i|i d]; cbn; unfold p_children; cbn; now destruct (p_registers i). Qed.
Lemma loose_add_peripheral p : true_to loose_index (add_peripheral p) (add_peripheral (dperipheral p)).
Proof.
  unfold add_peripheral. rewrite loose_names by reflexivity. apply tt_same. intros ns. apply tt_concat_same. intros n _. cbv zeta.
  rewrite loose_children, loose_registers, loose_clusters.
  apply tt_bind with (h := loose_index); [|intros a; apply tt_bind with (h := loose_index); [|intros b; apply tt_ok]].
  - apply tt_concat. intros r _. apply loose_add_register.
  - apply tt_concat. intros c _. rewrite <- loose_rc_cluster. apply loose_add_rc.
  - now rewrite !map_app.
Qed.
Lemma loose_create d : true_to loose_index (index_create d) (index_create (loose_device d)).
Proof. unfold index_create. cbn [d_peripherals loose_device]. apply tt_concat. intros p _. apply loose_add_peripheral. Qed.

Lemma lookup_loose {A} (f : entry -> option A) (h : A -> A) ix : (forall e, f (loose_entry e) = option_map h (f e)) ->
  lookup f (loose_index ix) = option_map h (lookup f ix).
Proof. intros H. induction ix as [|e ix IH]; [reflexivity|]. cbn [map lookup]. rewrite H, IH. now destruct (lookup f ix). Qed.

(** ** Through the arithmetic: overflow, or the same *)
Definition near (m : mode) {A B} (h : A -> B) (r : res A) (r' : res B) : Prop := (m = Debug /\ r = Panic Overflow) \/ r' = rmap h r.
Lemma nr_true m {A B} (h : A -> B) r r' : true_to h r r' -> near m h r r'.
Proof. now right. Qed.
Lemma nr_bind m {A B C D} (h : A -> B) (k : C -> D) r r' f g : near m h r r' -> (forall x, near m k (f x) (g (h x))) ->
  near m k (bind r f) (bind r' g).
Proof. intros [[M ->]|G] H; [now left|]. rewrite G. destruct r as [x|e|p]; cbn; [apply H|now right..]. Qed.
Lemma nr_ok m {A B} (h : A -> B) x y : h x = y -> near m h (Ok x) (Ok y).
Proof. intros <-. now right. Qed.
Lemma nr_same m {A B C} (k : B -> C) (r : res A) f g : (forall x, near m k (f x) (g x)) -> near m k (bind r f) (bind r g).
Proof. intros H. destruct r as [x|e|p]; cbn; [apply H|now right..]. Qed.
Lemma nr_concat m {A B C D} (g : A -> B) (h : C -> D) (f : A -> _) f' l :
  (forall x, In x l -> near m (map h) (f x) (f' (g x))) -> near m (map h) (concatM f l) (concatM f' (map g l)).
Proof.
  induction l as [|x l IH]; intros H; [now apply nr_ok|]. cbn [map concatM]. apply nr_bind with (h := map h); [apply H; now left|].
  intros a. apply nr_bind with (h := map h); [apply IH; intros y I; apply H; now right|]. intros b. apply nr_ok. apply map_app.
Qed.
Lemma nr_concat_same m {A C D} (h : C -> D) (f f' : A -> _) l :
  (forall x, In x l -> near m (map h) (f x) (f' x)) -> near m (map h) (concatM f l) (concatM f' l).
Proof. intros H. rewrite <- (map_id l) at 2. now apply nr_concat. Qed.
Lemma nr_mapM m {A B C D} (g : A -> B) (h : C -> D) (f : A -> _) f' l :
  (forall x, In x l -> near m h (f x) (f' (g x))) -> near m (map h) (mapM f l) (mapM f' (map g l)).
Proof.
  induction l as [|x l IH]; intros H; [now apply nr_ok|]. cbn [map mapM]. apply nr_bind with (h := h); [apply H; now left|].
  intros a. apply nr_bind with (h := map h); [apply IH; intros y I; apply H; now right|]. intros b. now apply nr_ok.
Qed.
Lemma nr_mapM_same m {A C D} (h : C -> D) (f f' : A -> _) l : (forall x, In x l -> near m h (f x) (f' x)) -> near m (map h) (mapM f l) (mapM f' l).
Proof. intros H. rewrite <- (map_id l) at 2. now apply nr_mapM. Qed.

Definition zero (n : N) : N := 0.
Lemma nr_add b m x y x' y' : 0 < b -> x' = 0 -> y' = 0 -> near m zero (add_w b m x y) (add_w b m x' y').
Proof.
  intros B -> ->. unfold add_w at 2. replace (0 + 0 <? b) with true by (symmetry; now apply N.ltb_lt).
  unfold add_w. destruct (x + y <? b); [now right|]. destruct m; [now left|now right].
Qed.
Lemma nr_mul b m i x : 0 < b -> near m zero (mul_w b m i x) (mul_w b m i 0).
Proof.
  intros B. unfold mul_w at 2. rewrite N.mul_0_r. replace (0 <? b) with true by (symmetry; now apply N.ltb_lt).
  unfold mul_w. destruct (i * x <? b); [now right|]. destruct m; [now left|now right].
Qed.
Lemma nr_offset m b d n : near m zero (offset_at m b d n) (offset_at m 0 (loose_dim d) n).
Proof. unfold offset_at. apply nr_bind with (h := zero); [now apply nr_mul|]. intros x. now apply nr_add. Qed.
Lemma nr_base m b d n : near m zero (base_at m b d n) (base_at m 0 (loose_dim d) n).
Proof. unfold base_at. apply nr_bind with (h := zero); [now apply nr_mul|]. intros x. now apply nr_add. Qed.

Section Look.
Variable m : mode.
Variable ix : index.
Notation ix' := (loose_index ix).
Lemma loose_ix_peripheral q : ix_peripheral ix' q = option_map dperipheral (ix_peripheral ix q).
Proof. apply lookup_loose. intros []; cbn; try reflexivity. now destruct (bp_eqb path q). Qed.
Lemma loose_ix_cluster q : ix_cluster ix' q = option_map loose_cluster (ix_cluster ix q).
Proof. apply lookup_loose. intros []; cbn; try reflexivity. now destruct (bp_eqb path q). Qed.
Lemma loose_ix_register q : ix_register ix' q = option_map dregister (ix_register ix q).
Proof. apply lookup_loose. intros []; cbn; try reflexivity. now destruct (rg_eqb path q). Qed.
Lemma loose_ix_field q : ix_field ix' q = option_map dfield (ix_field ix q).
Proof. apply lookup_loose. intros []; cbn; try reflexivity. now destruct (fp_eqb path q). Qed.
Lemma loose_ix_enum q : ix_enum ix' q = ix_enum ix q.
Proof. unfold ix_enum. induction ix as [|e l IH]; [reflexivity|]. cbn [map lookup]. rewrite IH. now destruct e. Qed.

Lemma loose_field_derive i j : field_derive (loose_field i) (loose_field j) = loose_field (field_derive i j).
Proof. unfold field_derive, loose_field. cbn. reflexivity. Qed.
Lemma loose_register_derive i j : register_derive (loose_register i) (loose_register j) = loose_register (register_derive i j).
Proof. unfold register_derive, loose_register. cbn. f_equal. now destruct (r_fields i). Qed.
Lemma loose_peripheral_derive i j : peripheral_derive (loose_peripheral i) (loose_peripheral j) = loose_peripheral (peripheral_derive i j).
Proof.
  unfold peripheral_derive, loose_peripheral. cbn. f_equal. now destruct (p_registers i).
Qed.
Lemma loose_cluster_derive c d : cluster_ma_derive (loose_cluster c) (loose_cluster d) = loose_cluster (cluster_ma_derive c d).
Proof.
  unfold cluster_ma_derive, loose_cluster. apply loose_ma_derive; [reflexivity|]. intros i j. unfold cluster_derive, loose_block, list_or. cbn. f_equal.
  now destruct (c_children i).
Qed.
Lemma loose_register_ma x y : register_ma_derive (dregister x) (dregister y) = dregister (register_ma_derive x y).
Proof. apply loose_ma_derive; [reflexivity|apply loose_register_derive]. Qed.
Lemma loose_field_ma x y : field_ma_derive (dfield x) (dfield y) = dfield (field_ma_derive x y).
Proof. apply loose_ma_derive; [reflexivity|apply loose_field_derive]. Qed.
Lemma loose_peripheral_ma x y : peripheral_ma_derive (dperipheral x) (dperipheral y) = dperipheral (peripheral_ma_derive x y).
Proof. apply loose_ma_derive; [reflexivity|apply loose_peripheral_derive]. Qed.
Lemma loose_derive_peripheral k : forall p dpath,
  true_to (fun q => (dperipheral (fst q), snd q)) (derive_peripheral ix k p dpath) (derive_peripheral ix' k (dperipheral p) dpath).
Proof.
  induction k as [|k IH]; intros p dpath; cbn [derive_peripheral]; [reflexivity|].
  replace (p_name (info (dperipheral p))) with (p_name (info p)) by now destruct p.
  destruct (seqb dpath _); [reflexivity|]. cbv zeta. rewrite loose_ix_peripheral.
  destruct (ix_peripheral ix _) as [d|]; cbn [ok_or option_map bind]; [|reflexivity].
  rewrite loose_peripheral_ma.
  replace (p_derived_from (info (dperipheral d))) with (p_derived_from (info d)) by now destruct d.
  destruct (p_derived_from (info d)); [apply IH|]. apply tt_ok. cbn. f_equal.
  replace (is_none (p_registers (info (dperipheral p)))) with (is_none (p_registers (info p))); [reflexivity|].
  destruct p as [i|i e]; cbn; now destruct (p_registers i).
Qed.
Lemma loose_derive_cluster k : forall c dpath path,
  true_to (fun q => (loose_cluster (fst q), snd q)) (derive_cluster ix k c dpath path) (derive_cluster ix' k (loose_cluster c) dpath path).
Proof.
  induction k as [|k IH]; intros c dpath path; cbn [derive_cluster]; [reflexivity|].
  apply tt_same. intros [b n]. cbv zeta. cbn [fst snd].
  replace (c_name (info (loose_cluster c))) with (c_name (info c)) by now destruct c.
  destruct (bp_eqb _ _ && seqb _ _); [reflexivity|]. rewrite loose_ix_cluster. destruct (ix_cluster ix _) as [d|]; cbn [ok_or option_map bind]; [|reflexivity].
  rewrite loose_cluster_derive.
  replace (c_derived_from (info (loose_cluster d))) with (c_derived_from (info d)) by now destruct d.
  destruct (c_derived_from (info d)); [apply IH|]. apply tt_ok. cbn. f_equal. rewrite loose_kids. now destruct (c_children (info c)).
Qed.
Lemma loose_derive_register k : forall r dpath path,
  true_to (fun q => (dregister (fst q), snd q)) (derive_register ix k r dpath path) (derive_register ix' k (dregister r) dpath path).
Proof.
  induction k as [|k IH]; intros r dpath path; cbn [derive_register]; [reflexivity|].
  apply tt_same. intros [b n]. cbv zeta. cbn [fst snd].
  replace (r_name (info (dregister r))) with (r_name (info r)) by now destruct r.
  destruct (bp_eqb _ _ && seqb _ _); [reflexivity|]. rewrite loose_ix_register. destruct (ix_register ix _) as [d|]; cbn [ok_or option_map bind]; [|reflexivity].
  rewrite loose_register_ma.
  replace (r_derived_from (info (dregister d))) with (r_derived_from (info d)) by now destruct d.
  destruct (r_derived_from (info d)); [apply IH|]. apply tt_ok. cbn. f_equal.
  replace (is_none (r_fields (info (dregister r)))) with (is_none (r_fields (info r))); [reflexivity|].
  destruct r as [i|i e]; cbn; now destruct (r_fields i).
Qed.
Lemma loose_derive_field k : forall f dpath path,
  true_to (fun q => (dfield (fst q), snd q)) (derive_field ix k f dpath path) (derive_field ix' k (dfield f) dpath path).
Proof.
  induction k as [|k IH]; intros f dpath path; cbn [derive_field]; [reflexivity|].
  apply tt_same. intros [b n]. cbv zeta. cbn [fst snd].
  replace (f_name (info (dfield f))) with (f_name (info f)) by now destruct f.
  destruct (rg_eqb _ _ && seqb _ _); [reflexivity|]. rewrite loose_ix_field. destruct (ix_field ix _) as [d|]; cbn [ok_or option_map bind]; [|reflexivity].
  rewrite loose_field_ma.
  replace (f_derived_from (info (dfield d))) with (f_derived_from (info d)) by now destruct d.
  destruct (f_derived_from (info d)); [apply IH|]. apply tt_ok. cbn. f_equal.
  now destruct f.
Qed.
Lemma loose_in_fields rg n fs : enum_in_fields ix' rg n (map dfield fs) = enum_in_fields ix rg n fs.
Proof.
  induction fs as [|f fs IH]; [reflexivity|]. cbn [map enum_in_fields]. cbv zeta.
  replace (f_name (info (dfield f))) with (f_name (info f)) by now destruct f.
  rewrite loose_ix_enum. destruct (ix_enum ix _); [reflexivity|exact IH].
Qed.
Lemma loose_derive_enum k : forall ev dpath fpath, derive_enum ix' k ev dpath fpath = derive_enum ix k ev dpath fpath.
Proof.
  induction k as [|k IH]; intros ev dpath fpath; cbn [derive_enum]; [reflexivity|].
  destruct (is_name dpath (evs_name ev)); [reflexivity|].
  destruct (unwrap (pop (split "." dpath))) as [[i n]| |]; [|reflexivity..]. cbn [bind fst snd]. cbv zeta.
  destruct (pop i) as [[v fd]|].
  - destruct (if is_nil v then _ else _) as [q| |]; [|reflexivity..]. cbn [bind].
    destruct (fp_eqb q fpath && _); [reflexivity|]. cbn [bind]. rewrite loose_ix_enum. destruct (option_map _ _) as [[d ep]|]; [|reflexivity].
    destruct (evs_derived_from d); [apply IH|reflexivity].
  - cbn [bind]. rewrite loose_ix_register. destruct (ix_register ix _) as [r|]; [|reflexivity]. cbn [option_map]. rewrite loose_fields_iter, loose_in_fields.
    destruct (enum_in_fields _ _ _ _) as [[d ep]|]; [|reflexivity]. destruct (evs_derived_from d); [apply IH|reflexivity].
Qed.
Lemma loose_expand_enum k fpath ev : expand_enum ix' k fpath ev = expand_enum ix k fpath ev.
Proof. unfold expand_enum. destruct (evs_derived_from ev); [|reflexivity]. now rewrite loose_derive_enum. Qed.

Lemma near_field k path f : near m (map dfield) (expand_field m ix k path f) (expand_field m ix' k path (dfield f)).
Proof.
  unfold expand_field. apply nr_bind with (h := fun q => (dfield (fst q), snd q)).
  { apply nr_true. replace (f_derived_from (info (dfield f))) with (f_derived_from (info f)) by now destruct f.
    destruct (f_derived_from (info f)) as [s|]; [|now apply tt_ok].
    replace (ma_map f_underive (dfield f)) with (dfield (ma_map f_underive f)) by now destruct f.
    apply loose_derive_field. }
  intros [z o]. cbv zeta. cbn [fst snd].
  replace (f_name (info (dfield z))) with (f_name (info z)) by now destruct z.
  replace (f_enumerated_values (info (dfield z))) with (f_enumerated_values (info z)) by now destruct z.
  rewrite (mapM_ext (expand_enum ix' _ _) (expand_enum ix k (opt_default (new_field path (f_name (info z))) o))) by (intros; apply loose_expand_enum).
  apply nr_same. intros evs.
  destruct z as [i|i d]; cbn [ma_map loose_any]; [now apply nr_ok|].
  apply nr_bind with (h := map loose_field).
  - apply nr_mapM_same. intros n _. unfold field_instance.
    change (index_at (loose_dim d) n) with (index_at d n). apply nr_same. intros idx.
    apply nr_bind with (h := zero); [apply nr_offset|]. intros off. now apply nr_ok.
  - intros l. apply nr_ok. now rewrite !map_map.
Qed.
Lemma near_register k path r :
  near m (map loose_rc) (expand_register_array m ix k path r) (expand_register_array m ix' k path (dregister r)).
Proof.
  unfold expand_register_array. apply nr_bind with (h := fun q => (dregister (fst q), snd q)).
  { apply nr_true. replace (r_derived_from (info (dregister r))) with (r_derived_from (info r)) by now destruct r.
    destruct (r_derived_from (info r)) as [s|]; [|now apply tt_ok].
    replace (ma_map r_underive (dregister r)) with (dregister (ma_map r_underive r)) by now destruct r.
    apply loose_derive_register. }
  intros [z o]. cbv zeta. cbn [fst snd].
  replace (r_name (info (dregister z))) with (r_name (info z)) by now destruct z.
  set (rpath := opt_default _ _).
  apply nr_bind with (h := dregister).
  - replace (r_fields (info (dregister z))) with (option_map (map dfield) (r_fields (info z))) by now destruct z.
    destruct (r_fields (info z)) as [fs|]; cbn [option_map]; [|now apply nr_ok].
    apply nr_bind with (h := map dfield).
    + apply nr_concat. intros f _. apply near_field.
    + intros l. apply nr_ok. now destruct z.
  - intros x. destruct x as [i|i d]; cbn [loose_any]; [now apply nr_ok|]. apply nr_bind with (h := map loose_register).
    + apply nr_mapM_same. intros n _. unfold register_instance. cbn [r_address_offset loose_register].
      change (index_at (loose_dim d) n) with (index_at d n). apply nr_same. intros idx.
      apply nr_bind with (h := zero); [apply nr_offset|]. intros off. now apply nr_ok.
    + intros l. apply nr_ok. now rewrite !map_map.
Qed.
Lemma near_cluster (c c' : cluster_info) : c_name c' = c_name c -> c_address_offset c' = 0 ->
  c_children c' = map loose_rc (c_children c) -> near m (map loose_rc) (expand_cluster m c) (expand_cluster m c').
Proof.
  intros N O C. unfold expand_cluster. rewrite C, N, O. apply nr_mapM. intros x _. destruct x as [r|x]; [|rewrite loose_rc_cluster; now right].
  cbn [loose_rc]. replace (r_address_offset (info (dregister r))) with 0 by now destruct r.
  apply nr_bind with (h := zero); [now apply nr_add|]. intros off. apply nr_ok. now destruct r.
Qed.
Lemma near_rc k : forall path rc, near m (map loose_rc) (expand_rc m ix k path rc) (expand_rc m ix' k path (loose_rc rc)).
Proof.
  induction k as [|k IH]; intros path rc; [now right|]. destruct rc as [r|c]; [apply near_register|].
  rewrite loose_rc_cluster. cbn [expand_rc]. apply nr_bind with (h := fun q => (loose_cluster (fst q), snd q)).
  { apply nr_true. assert (N : c_derived_from (info (loose_cluster c)) = c_derived_from (info c)) by now destruct c.
    unfold cluster_info, cluster in *. rewrite N. clear N.
    destruct (c_derived_from (info c)) as [s|]; [|now apply tt_ok].
    pose proof (loose_derive_cluster k (ma_map (fun i => c_with i (c_children i) None) c) s path) as B.
    destruct c; exact B. }
  intros [z o]. cbv zeta. cbn [fst snd]. rewrite loose_kids.
  replace (c_name (info (loose_cluster z))) with (c_name (info z)) by now destruct z.
  apply nr_bind with (h := map loose_rc); [apply nr_concat; intros x _; apply IH|].
  intros kids. destruct z as [i|i d]; cbn [loose_cluster loose_any ma_map].
  - now apply near_cluster.
  - apply nr_concat_same. intros n _. unfold cluster_instance.
    cbn [c_name c_address_offset c_with loose_block c_description c_alternate_cluster c_header_struct_name c_default_properties c_children c_derived_from].
    change (index_at (loose_dim d) n) with (index_at d n). rewrite !bind_assoc. apply nr_same. intros idx.
    rewrite !bind_assoc. apply nr_bind with (h := zero); [apply nr_offset|]. intros off. cbn [bind].
    now apply near_cluster.
Qed.
Lemma near_peripheral k p :
  near m (map dperipheral) (expand_peripheral m ix k p) (expand_peripheral m ix' k (dperipheral p)).
Proof.
  unfold expand_peripheral. apply nr_bind with (h := fun q => (dperipheral (fst q), snd q)).
  { apply nr_true. replace (p_derived_from (info (dperipheral p))) with (p_derived_from (info p)) by now destruct p.
    destruct (p_derived_from (info p)) as [s|]; [|now apply tt_ok].
    replace (ma_map (fun i => p_with i (p_registers i) None) (dperipheral p))
      with (dperipheral (ma_map (fun i => p_with i (p_registers i) None) p)) by now destruct p.
    apply loose_derive_peripheral. }
  intros [z o]. cbv zeta. cbn [fst snd].
  replace (p_name (info (dperipheral z))) with (p_name (info z)) by now destruct z.
  apply nr_bind with (h := dperipheral).
  - replace (p_registers (info (dperipheral z))) with (option_map (map loose_rc) (p_registers (info z))) by now destruct z.
    destruct (p_registers (info z)) as [rs|]; cbn [option_map]; [|now apply nr_ok].
    apply nr_bind with (h := map loose_rc).
    + apply nr_concat. intros x _. apply near_rc.
    + intros l. apply nr_ok. now destruct z.
  - intros x. destruct x as [i|i d]; cbn [loose_any]; [now apply nr_ok|]. apply nr_bind with (h := map loose_peripheral).
    + apply nr_mapM_same. intros n _. unfold peripheral_instance. cbn [p_base_address loose_peripheral].
      change (index_at (loose_dim d) n) with (index_at d n). apply nr_same. intros idx.
      apply nr_bind with (h := zero); [apply nr_base|]. intros off. now apply nr_ok.
    + intros l. apply nr_ok. now rewrite !map_map.
Qed.
End Look.

Lemma near_expand m fuel d : near m loose_device (expand m fuel d) (expand m fuel (loose_device d)).
Proof.
  unfold expand. apply nr_bind with (h := loose_index); [apply nr_true, loose_create|]. intros ix.
  apply nr_bind with (h := map dperipheral).
  - cbn [d_peripherals loose_device]. apply nr_concat. intros p _. apply near_peripheral.
  - intros ps. now apply nr_ok.
Qed.
Lemma places_expand m fuel d e : same_but_places d e -> agree same_but_places (expand m fuel d) (expand m fuel e).
Proof.
  intros H. pose proof (near_expand m fuel d) as [[_ D]|D]; [rewrite D; cbn; now destruct (expand m fuel e) as [| |[]]|].
  pose proof (near_expand m fuel e) as [[_ E]|E]; [rewrite E; cbn; now destruct (expand m fuel d) as [| |[]]|].
  unfold same_but_places in *. rewrite H in D. rewrite D in E.
  assert (O : forall x y : device, Ok (loose_device x) = Ok (loose_device y) -> loose_device x = loose_device y) by congruence.
  destruct (expand m fuel d) as [x|x|x], (expand m fuel e) as [y|y|y]; cbn [rmap] in E; try discriminate E; cbn; [exact (O _ _ E)|now injection E|].
  injection E as ->. now destruct y.
Qed.
Lemma places_release fuel d e : same_but_places d e ->
  match expand Release fuel d, expand Release fuel e with
  | Ok d', Ok e' => same_but_places d' e'
  | Err x, Err y => x = y
  | Panic x, Panic y => x = y
  | _, _ => False
  end.
Proof.
  intros H. pose proof (near_expand Release fuel d) as [[? _]|D]; [discriminate|].
  pose proof (near_expand Release fuel e) as [[? _]|E]; [discriminate|].
  unfold same_but_places in *. rewrite H in D. rewrite D in E.
  assert (O : forall x y : device, Ok (loose_device x) = Ok (loose_device y) -> loose_device x = loose_device y) by congruence.
  destruct (expand Release fuel d) as [x|x|x], (expand Release fuel e) as [y|y|y]; cbn [rmap] in E; try discriminate E;
    [exact (O _ _ E)|now injection E..].
Qed.

(** ** Validation and properties *)
Section Valid.
  Variable l : level.
  Lemma loose_valid_field f : field_validate_all l (loose_any loose_field f) = field_validate_all l f.
  Proof. unfold field_validate_all, ma_validate_all. now destruct f as [i|i d]. Qed.
  Lemma loose_valid_register r : register_validate_all l (loose_any loose_register r) = register_validate_all l r.
  Proof.
    unfold register_validate_all, ma_validate_all.
    assert (X : forall i, register_info_validate_all l (loose_register i) = register_info_validate_all l i).
    { intros i. unfold register_info_validate_all. cbn [r_properties loose_register].
      replace (r_fields_iter (loose_register i)) with (map (loose_any loose_field) (r_fields_iter i))
        by (unfold r_fields_iter; cbn; now destruct (r_fields i)).
      rewrite iterM_docs by (intros; apply loose_valid_field). unfold register_validate. cbn. destruct (r_fields i) as [fs|]; [|reflexivity].
      cbn. now rewrite is_nil_map. }
    destruct r as [i|i d]; cbn; apply X.
  Qed.
  Lemma loose_valid_rc rc : rc_validate_all l (loose_rc rc) = rc_validate_all l rc.
  Proof.
    induction rc as [r|c IH] using rc_tree_ind; [apply loose_valid_register|]. rewrite Forall_forall in IH.
    rewrite loose_rc_cluster. cbn [rc_validate_all]. rewrite loose_kids.
    assert (A : iterM (fun x => match x with RCRegister _ => rc_validate_all l x | _ => Ok tt end) (map loose_rc (c_children (info c))) =
                iterM (fun x => match x with RCRegister _ => rc_validate_all l x | _ => Ok tt end) (c_children (info c))).
    { apply iterM_docs. intros x I. specialize (IH x I). destruct x as [r|x]; [exact IH|]. now rewrite loose_rc_cluster. }
    assert (B : iterM (fun x => match x with RCCluster _ => rc_validate_all l x | _ => Ok tt end) (map loose_rc (c_children (info c))) =
                iterM (fun x => match x with RCCluster _ => rc_validate_all l x | _ => Ok tt end) (c_children (info c))).
    { apply iterM_docs. intros x I. specialize (IH x I). destruct x as [r|x]; [reflexivity|]. rewrite loose_rc_cluster in *. exact IH. }
    unfold cluster_info, cluster in *. rewrite A, B. destruct c as [i|i d]; cbn; unfold cluster_validate; cbn; now rewrite is_nil_map.
  Qed.
  Lemma loose_valid_peripheral p : peripheral_validate_all l (loose_any loose_peripheral p) = peripheral_validate_all l p.
  Proof.
    assert (X : forall i, peripheral_info_validate_all l (loose_peripheral i) = peripheral_info_validate_all l i).
    { intros i. unfold peripheral_info_validate_all. cbn [p_address_block p_interrupt p_default_properties loose_peripheral].
      replace (p_children (loose_peripheral i)) with (map loose_rc (p_children i)) by (unfold p_children; cbn; now destruct (p_registers i)).
      rewrite loose_registers, loose_clusters. rewrite !iterM_docs; [| |intros; apply loose_valid_register].
      - unfold peripheral_validate. cbn. destruct (p_registers i) as [rs|]; [|reflexivity]. cbn. now rewrite is_nil_map.
      - intros c _. unfold cluster_validate_all. rewrite <- loose_rc_cluster. apply loose_valid_rc. }
    unfold peripheral_validate_all, ma_validate_all. destruct p as [i|i d]; cbn; apply X.
  Qed.
  Lemma loose_valid d : device_validate_all l (loose_device d) = device_validate_all l d.
  Proof.
    unfold device_validate_all. cbn [d_cpu d_default_properties d_peripherals loose_device]. rewrite iterM_docs by (intros; apply loose_valid_peripheral).
    unfold device_validate. cbn. now rewrite is_nil_map.
  Qed.
  Lemma loose_fill rc : forall q, expand_properties_rc q (loose_rc rc) = loose_rc (expand_properties_rc q rc).
  Proof.
    induction rc as [r|c IH] using rc_tree_ind; intros q.
    - cbn. destruct r as [i|i d]; cbn; now destruct (r_derived_from i).
    - rewrite Forall_forall in IH. rewrite loose_rc_cluster. cbn [expand_properties_rc].
      assert (X : forall u, map (expand_properties_rc u) (map loose_rc (c_children (info c))) = map loose_rc (map (expand_properties_rc u) (c_children (info c)))).
      { intros u. rewrite !map_map. apply map_ext_in. intros x I. now apply IH. }
      clear IH. destruct c as [i|i d]; cbn in *; (destruct (c_derived_from i) eqn:E; cbn; [reflexivity|]; unfold loose_block, c_with; cbn; now rewrite X).
  Qed.
  Lemma loose_filled d : expand_properties (loose_device d) = loose_device (expand_properties d).
  Proof.
    unfold expand_properties. cbn [d_peripherals d_default_properties loose_device d_set_peripherals].
    unfold loose_device, d_set_peripherals. cbn. f_equal. rewrite !map_map. apply map_ext. intros p.
    unfold expand_properties_peripheral. destruct p as [i|i e]; cbn; destruct (p_derived_from i) eqn:E; cbn; rewrite ?E; try reflexivity;
      (f_equal; unfold loose_peripheral, p_with; cbn; f_equal; destruct (p_registers i) as [rs|]; [|reflexivity]; cbn; f_equal;
        rewrite !map_map; apply map_ext; intros x; apply loose_fill).
  Qed.
End Valid.
Lemma places_valid l d e : same_but_places d e -> device_validate_all l d = device_validate_all l e.
Proof. intros H. rewrite <- (loose_valid l d), <- (loose_valid l e). now rewrite H. Qed.
Lemma places_filled d e : same_but_places d e -> same_but_places (expand_properties d) (expand_properties e).
Proof. unfold same_but_places. intros H. now rewrite <- !loose_filled, H. Qed.
