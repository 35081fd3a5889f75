(** Filling in the properties before the expansion or after it. *)
From Verif Require Import Base BaseFacts TreeFacts Types Derive Arrays Expand SpecExpand SpecProps PropertyProofs SpecLeaves SpecSwap.

Notation fill := expand_properties_rc (only parsing).

(** ** Indexes that agree about fields and enumerations *)

Inductive kin : entry -> entry -> Prop :=
  | kin_peripheral k p p' : kin (InPeripheral k p) (InPeripheral k p')
  | kin_cluster k c c' : kin (InCluster k c) (InCluster k c')
  | kin_register k r r' : r_fields (info r) = r_fields (info r') -> kin (InRegister k r) (InRegister k r')
  | kin_field k f : kin (InField k f) (InField k f)
  | kin_enum k e : kin (InEnum k e) (InEnum k e).
Definition both (a b : res index) : Prop :=
  match a, b with
  | Ok x, Ok y => Forall2 kin x y
  | Err e, Err e' => e = e'
  | Panic p, Panic p' => p = p'
  | _, _ => False
  end.

Lemma both_bind a b f g : both a b -> (forall x y, Forall2 kin x y -> both (f x) (g y)) -> both (bind a f) (bind b g).
Proof. destruct a, b; cbn; intros H K; try contradiction; auto. Qed.
Lemma both_concat {A B} (R : A -> B -> Prop) f g l l' : Forall2 R l l' -> (forall x y, R x y -> both (f x) (g y)) ->
  both (concatM f l) (concatM g l').
Proof.
  intros F H. induction F as [|x y l l' r F IH]; cbn; [constructor|].
  apply both_bind; [auto|]. intros a b K. apply both_bind; [exact IH|]. intros a' b' K'. cbn. now apply Forall2_app.
Qed.
Lemma both_concat_map {A B} (h : A -> B) f g l : (forall x, In x l -> both (f x) (g (h x))) ->
  both (concatM f l) (concatM g (map h l)).
Proof.
  induction l as [|x l IH]; cbn; intros H; [constructor|].
  apply both_bind; [auto|]. intros a b K. apply both_bind; [apply IH; auto|]. intros a' b' K'. cbn. now apply Forall2_app.
Qed.
Lemma both_concat_same {A} f g (l : list A) : (forall x, In x l -> both (f x) (g x)) -> both (concatM f l) (concatM g l).
Proof. intros H. rewrite <- (map_id l) at 2. apply both_concat_map. exact H. Qed.
Lemma both_refl a : both a a.
Proof. destruct a as [l| |]; cbn; auto. induction l as [|e l IH]; constructor; [destruct e; now constructor|exact IH]. Qed.
Lemma both_register_at rg r r' : r_fields (info r) = r_fields (info r') -> both (register_at rg r) (register_at rg r').
Proof.
  intros E. unfold register_at, r_fields_iter. rewrite <- E. apply both_bind.
  - apply both_refl.
  - intros x y K. cbn. apply Forall2_app; [exact K|]. now repeat constructor.
Qed.
Lemma entry_names_map {A} (name : A -> string) f (x : maybe_array A) : (forall i, name (f i) = name i) ->
  entry_names name (ma_map f x) = entry_names name x.
Proof. intros H. unfold entry_names. destruct x; cbn; now rewrite H. Qed.
Lemma both_add_register path q (r : register) :
  both (add_register path r) (add_register path (ma_map (fun i => r_set_properties i (rp_derive (r_properties i) q)) r)).
Proof.
  unfold add_register. rewrite entry_names_map by reflexivity. destruct (entry_names r_name r) as [ns| |]; cbn [bind]; cbn; auto.
  apply both_concat_same. intros n _. apply both_register_at. now destruct r.
Qed.
Lemma fill_kind q x : match x, fill q x with RCRegister _, RCRegister _ => True | RCCluster _, RCCluster _ => True | _, _ => False end.
Proof.
  destruct x as [r|c]; cbn; [now destruct (is_some (r_derived_from (info r)))|now destruct (is_some (c_derived_from (info c)))].
Qed.
Lemma both_add_rc rc : forall q path, both (add_rc path rc) (add_rc path (fill q rc)).
Proof.
  induction rc as [r|c IH] using rc_tree_ind; intros q path; cbn [expand_properties_rc].
  - destruct (is_some (r_derived_from (info r))); cbn [add_rc]; [apply both_refl|apply both_add_register].
  - destruct (is_some (c_derived_from (info c))); [apply both_refl|]. cbv zeta.
    rewrite Forall_forall in IH. cbn [add_rc]. rewrite entry_names_map by reflexivity.
    destruct (entry_names c_name c) as [ns| |]; cbn [bind]; [|cbn; auto..].
    apply both_concat_same. intros n _. cbv zeta.
    replace (c_children (info (ma_map _ c))) with (map (fill (rp_derive (c_default_properties (info c)) q)) (c_children (info c))) by now destruct c.
    set (u := rp_derive _ q). apply both_bind; [|intros a b K; apply both_bind; [|intros a' b' K'; cbn]].
    + apply both_concat_map. intros x I. pose proof (IH x I u (new_cluster path n)) as B. pose proof (fill_kind u x) as M.
      destruct x, (fill u _); try contradiction; [exact B|constructor].
    + apply both_concat_map. intros x I. pose proof (IH x I u (new_cluster path n)) as B. pose proof (fill_kind u x) as M.
      destruct x, (fill u _); try contradiction; [constructor|exact B].
    + apply Forall2_app; [exact K|]. apply Forall2_app; [exact K'|]. repeat constructor.
Qed.
Lemma both_add_peripheral top p : both (add_peripheral p) (add_peripheral (expand_properties_peripheral top p)).
Proof.
  unfold expand_properties_peripheral. destruct (is_some (p_derived_from (info p))); [apply both_refl|]. cbv zeta.
  set (u := rp_derive _ top). unfold add_peripheral. rewrite entry_names_map by reflexivity.
  destruct (entry_names p_name p) as [ns| |]; cbn [bind]; [|cbn; auto..].
  replace (p_children (info (ma_map _ p))) with (map (fill u) (p_children (info p)))
    by (destruct p as [i|i d]; cbn; unfold p_children; cbn; now destruct (p_registers i)).
  apply both_concat_same. intros n _. cbv zeta. apply both_bind; [|intros a b K; apply both_bind; [|intros a' b' K'; cbn]].
  - induction (p_children (info p)) as [|x l IH]; cbn [map]; [constructor|].
    pose proof (both_add_rc x u (bp_new n)) as B. pose proof (fill_kind u x) as M.
    destruct x, (fill u _); try contradiction; cbn [rc_registers concatM]; [|exact IH].
    apply both_bind; [exact B|]. intros a b K. apply both_bind; [exact IH|]. intros a' b' K'. cbn. now apply Forall2_app.
  - clear a b K. induction (p_children (info p)) as [|x l IH]; cbn [map]; [constructor|].
    pose proof (both_add_rc x u (bp_new n)) as B. pose proof (fill_kind u x) as M.
    destruct x, (fill u _); try contradiction; cbn [rc_clusters concatM]; [exact IH|].
    apply both_bind; [exact B|]. intros a b K. apply both_bind; [exact IH|]. intros a' b' K'. cbn. now apply Forall2_app.
  - apply Forall2_app; [exact K|]. apply Forall2_app; [exact K'|]. repeat constructor.
Qed.
Lemma both_index d : both (index_create d) (index_create (expand_properties d)).
Proof. unfold index_create, expand_properties. apply both_concat_map. intros p _. apply both_add_peripheral. Qed.

Section Alike.
  Variable m : mode.
  Variables ix ix' : index.
  Hypothesis K : Forall2 kin ix ix'.

  Lemma ix_field_kin q : ix_field ix q = ix_field ix' q.
  Proof. induction K as [|x y l l' H F IH]; [reflexivity|]. unfold ix_field in *. cbn. rewrite (IH F). now destruct H. Qed.
  Lemma ix_enum_kin q : ix_enum ix q = ix_enum ix' q.
  Proof. induction K as [|x y l l' H F IH]; [reflexivity|]. unfold ix_enum in *. cbn. rewrite (IH F). now destruct H. Qed.
  Lemma ix_register_kin q : option_map (fun r => r_fields (info r)) (ix_register ix q) = option_map (fun r => r_fields (info r)) (ix_register ix' q).
  Proof.
    induction K as [|x y l l' H F IH]; [reflexivity|]. specialize (IH F). unfold ix_register in *. cbn.
    destruct (lookup _ l), (lookup _ l'); try discriminate IH; cbn; [exact IH|].
    destruct H; try reflexivity. destruct (rg_eqb k q); [|reflexivity]. cbn. now rewrite H.
  Qed.
  Lemma derive_field_kin fuel : forall f dpath rpath, derive_field ix fuel f dpath rpath = derive_field ix' fuel f dpath rpath.
  Proof.
    induction fuel as [|k IH]; intros f dpath rpath; cbn [derive_field]; [reflexivity|].
    destruct (fp_parse_str dpath) as [q| |]; cbn [bind]; [|reflexivity..]. rewrite ix_field_kin.
    destruct (rg_eqb _ _ && seqb _ _); [reflexivity|]. destruct (ix_field ix' _) as [x|]; cbn [ok_or bind]; [|reflexivity].
    destruct (f_derived_from (info x)); [apply IH|reflexivity].
  Qed.
  Lemma enum_in_fields_kin rd dn fs : enum_in_fields ix rd dn fs = enum_in_fields ix' rd dn fs.
  Proof. induction fs as [|f fs IH]; cbn [enum_in_fields]; [reflexivity|]. now rewrite ix_enum_kin, IH. Qed.
  Lemma derive_enum_kin fuel : forall ev dpath fpath, derive_enum ix fuel ev dpath fpath = derive_enum ix' fuel ev dpath fpath.
  Proof.
    induction fuel as [|k IH]; intros ev dpath fpath; cbn [derive_enum]; [reflexivity|].
    destruct (is_name dpath (evs_name ev)); [reflexivity|]. destruct (unwrap (pop (split "." dpath))) as [q| |]; cbn [bind]; [|reflexivity..].
    match goal with |- bind ?a _ = bind ?b _ => assert (E : a = b) end.
    { destruct (pop (fst q)) as [[v fd]|].
      - match goal with |- bind ?a _ = _ => destruct a; cbn [bind]; [|reflexivity..] end. now rewrite ix_enum_kin.
      - pose proof (ix_register_kin (fp_register fpath)) as R.
        destruct (ix_register ix _), (ix_register ix' _); try discriminate R; [|reflexivity]. cbn in R. injection R as R.
        unfold r_fields_iter. now rewrite R, enum_in_fields_kin. }
    rewrite E. match goal with |- bind ?a _ = _ => destruct a as [[[x e]|]| |]; cbn [bind]; [|reflexivity..] end.
    destruct (evs_derived_from x); [apply IH|reflexivity].
  Qed.
  Lemma expand_field_kin fuel rpath f : expand_field m ix fuel rpath f = expand_field m ix' fuel rpath f.
  Proof.
    unfold expand_field.
    assert (E : match f_derived_from (info f) with Some dpath => derive_field ix fuel (ma_map f_underive f) dpath rpath | None => Ok (f, None) end =
                match f_derived_from (info f) with Some dpath => derive_field ix' fuel (ma_map f_underive f) dpath rpath | None => Ok (f, None) end)
      by (destruct (f_derived_from (info f)); [apply derive_field_kin|reflexivity]).
    rewrite E. match goal with |- bind ?a _ = _ => destruct a as [q| |]; cbn [bind]; [|reflexivity..] end.
    set (fpath := opt_default _ (snd q)).
    replace (mapM (expand_enum ix fuel fpath) (f_enumerated_values (info (fst q))))
      with (mapM (expand_enum ix' fuel fpath) (f_enumerated_values (info (fst q)))); [reflexivity|].
    induction (f_enumerated_values (info (fst q))) as [|e l IH]; cbn; [reflexivity|]. rewrite IH.
    unfold expand_enum at 1 3. destruct (evs_derived_from e); [now rewrite derive_enum_kin|reflexivity].
  Qed.
End Alike.

(** ** Filling in after each step *)

Lemma bind_rmap {A B C} (f : A -> B) (g : B -> res C) r : bind (rmap f r) g = bind r (fun x => g (f x)).
Proof. now destruct r. Qed.
Lemma rmap_bind {A B C} (f : A -> res B) (g : B -> C) r : rmap g (bind r f) = bind r (fun x => rmap g (f x)).
Proof. now destruct r. Qed.
Lemma bind_same {A B} (r : res A) (f g : A -> res B) : (forall a, f a = g a) -> bind r f = bind r g.
Proof. intros H. destruct r; cbn; auto. Qed.
Lemma concatM_swap {A B C D} (f : A -> res (list B)) (f' : C -> res (list D)) (g : A -> C) (h : B -> D) l :
  (forall x, In x l -> f' (g x) = rmap (map h) (f x)) -> concatM f' (map g l) = rmap (map h) (concatM f l).
Proof.
  induction l as [|x l IH]; cbn [map concatM]; intros H; [reflexivity|]. rewrite H by (now left). rewrite IH by (intros y I; apply H; now right).
  rewrite bind_rmap, rmap_bind. apply bind_same. intros a. rewrite bind_rmap, rmap_bind. apply bind_same. intros b. cbn. now rewrite map_app.
Qed.
Lemma concatM_swap_same {A B D} (f : A -> res (list B)) (f' : A -> res (list D)) (h : B -> D) l :
  (forall x, In x l -> f' x = rmap (map h) (f x)) -> concatM f' l = rmap (map h) (concatM f l).
Proof. intros H. rewrite <- (map_id l) at 1. now apply concatM_swap. Qed.
Lemma mapM_swap {A B C D} (f : A -> res B) (f' : C -> res D) (g : A -> C) (h : B -> D) l :
  (forall x, In x l -> f' (g x) = rmap h (f x)) -> mapM f' (map g l) = rmap (map h) (mapM f l).
Proof.
  induction l as [|x l IH]; cbn [map mapM]; intros H; [reflexivity|]. rewrite H by (now left). rewrite IH by (intros y I; apply H; now right).
  rewrite bind_rmap, rmap_bind. apply bind_same. intros a. rewrite bind_rmap, rmap_bind. now apply bind_same.
Qed.
Lemma mapM_swap_same {A B D} (f : A -> res B) (f' : A -> res D) (h : B -> D) l :
  (forall x, In x l -> f' x = rmap h (f x)) -> mapM f' l = rmap (map h) (mapM f l).
Proof. intros H. rewrite <- (map_id l) at 1. now apply mapM_swap. Qed.
Lemma concatM_ext {A B} (f g : A -> res (list B)) l : (forall x, f x = g x) -> concatM f l = concatM g l.
Proof. intros H. induction l as [|x l IH]; cbn; [reflexivity|]. now rewrite H, IH. Qed.

Lemma new_nothing c q : nothing_new c q -> rp_derive c q = q.
Proof.
  destruct c as [s a p v k], q as [s' a' p' v' k']. unfold nothing_new, rp_derive. cbn. intros (S & A & P & V & M).
  f_equal; [destruct S as [->| ->], s'|destruct A as [->| ->], a'|destruct P as [->| ->], p'|destruct V as [->| ->], v'|destruct M as [->| ->], k'];
  reflexivity.
Qed.

Section Swap.
  Variable m : mode.
  Variables ix ix' : index.
  Hypothesis K : Forall2 kin ix ix'.

  Definition given (q : reg_props) (i : register_info) : register_info := r_set_properties i (rp_derive (r_properties i) q).
  Lemma fill_register q r : r_derived_from (info r) = None -> fill q (RCRegister r) = RCRegister (ma_map (given q) r).
  Proof. intros E. cbn. now rewrite E. Qed.

  Lemma swap_register k path q (r : register) : r_derived_from (info r) = None ->
    expand_register_array m ix' k path (ma_map (given q) r) = rmap (map (fill q)) (expand_register_array m ix k path r).
  Proof.
    intros E. unfold expand_register_array.
    replace (r_derived_from (info (ma_map (given q) r))) with (r_derived_from (info r)) by now destruct r.
    rewrite E. cbn [bind fst snd].
    replace (r_name (info (ma_map (given q) r))) with (r_name (info r)) by now destruct r.
    replace (r_fields (info (ma_map (given q) r))) with (r_fields (info r)) by now destruct r.
    set (rpath := opt_default _ None).
    assert (T : forall x : register, r_derived_from (info x) = None ->
              match ma_map (given q) x with
              | Single i => Ok [RCRegister (Single i)]
              | Array i d => let* l := register_expand m i d in Ok (map (fun i => RCRegister (Single i)) l)
              end = rmap (map (fill q)) match x with
              | Single i => Ok [RCRegister (Single i)]
              | Array i d => let* l := register_expand m i d in Ok (map (fun i => RCRegister (Single i)) l)
              end).
    { intros [i|i d] N; cbn [ma_map]; cbn in N; [cbn; now rewrite N|].
      unfold register_expand. rewrite (mapM_swap_same (register_instance m i d) _ (given q)).
      - rewrite bind_rmap, rmap_bind. destruct (mapM _ _) as [l| |] eqn:X; cbn [bind]; [|reflexivity..]. cbn. f_equal. rewrite !map_map.
        apply map_ext_in. intros y I. cbn. replace (r_derived_from y) with (@None string); [reflexivity|].
        apply mapM_ok in X. destruct (Forall2_in_r _ _ _ X y I) as (n & _ & Y). unfold register_instance in Y.
        apply bind_ok in Y as (idx & _ & Y). apply bind_ok in Y as (off & _ & Y). injection Y as <-. cbn. now symmetry.
      - intros n _. unfold register_instance. rewrite rmap_bind. apply bind_same. intros idx. rewrite rmap_bind. now apply bind_same. }
    destruct (r_fields (info r)) as [fs|]; cbn [bind]; [|now apply T].
    rewrite (concatM_ext (expand_field m ix' k rpath) (expand_field m ix k rpath)) by (intros f; symmetry; now apply expand_field_kin).
    destruct (concatM _ fs) as [l| |]; cbn [bind]; [|reflexivity..].
    rewrite <- T by (now destruct r). now destruct r.
  Qed.
  Lemma swap_cluster (c c' : cluster_info) q : c_name c' = c_name c -> c_address_offset c' = c_address_offset c ->
    c_children c' = map (fill q) (c_children c) -> expand_cluster m c' = rmap (map (fill q)) (expand_cluster m c).
  Proof.
    intros N O C. unfold expand_cluster. rewrite C, N, O. apply mapM_swap. intros x _. destruct x as [r|x]; cbn.
    - destruct r as [i|i d]; cbn; (destruct (r_derived_from i) eqn:E; cbn; (destruct (add32 _ _ _) as [off| |]; cbn; [|reflexivity..]);
        rewrite E; reflexivity).
    - now destruct (is_some (c_derived_from (info x))).
  Qed.
  Lemma swap_rc k : forall path q rc, plain_rc rc -> adds_nothing q rc ->
    expand_rc m ix' k path (fill q rc) = rmap (map (fill q)) (expand_rc m ix k path rc).
  Proof.
    induction k as [|k IH]; intros path q rc P A; [reflexivity|].
    inversion P as [r E|c E F]; subst.
    - rewrite fill_register by exact E. cbn [expand_rc]. now apply swap_register.
    - inversion A as [|? N G]; subst. rewrite Forall_forall in F, G.
      cbn [expand_properties_rc]. unfold cluster_info, cluster in *. rewrite E. cbn [is_some]. cbv zeta. rewrite (new_nothing _ _ N).
      match goal with |- expand_rc _ _ _ _ (RCCluster ?x) = _ => set (c' := x) end. cbn [expand_rc]. unfold cluster_info, cluster.
      assert (E' : c_derived_from (info c') = None) by (unfold c'; destruct c; exact E).
      rewrite E, E'. cbn [bind fst snd].
      replace (c_name (info c')) with (c_name (info c)) by (unfold c'; now destruct c).
      replace (c_children (info c')) with (map (fill q) (c_children (info c))) by (unfold c'; now destruct c).
      rewrite (concatM_swap (expand_rc m ix k (opt_default (new_cluster path (c_name (info c))) None)) _ (fill q) (fill q)) by
        (intros x I; apply IH; auto).
      rewrite bind_rmap, rmap_bind. apply bind_same. intros kids. unfold c'. destruct c as [i|i d]; cbn [ma_map].
      + now apply swap_cluster.
      + apply concatM_swap_same. intros n _. unfold cluster_instance. cbn [c_name c_address_offset c_with c_description c_alternate_cluster
          c_header_struct_name c_default_properties c_children c_derived_from].
        destruct (index_at d n) as [idx| |]; cbn [bind]; [|reflexivity..].
        destruct (offset_at m (c_address_offset i) d n) as [off| |]; cbn [bind]; [|reflexivity..]. now apply swap_cluster.
  Qed.
  Lemma swap_peripheral k top p : p_derived_from (info p) = None -> Forall plain_rc (or_empty (p_registers (info p))) ->
    Forall (adds_nothing (rp_derive (p_default_properties (info p)) top)) (or_empty (p_registers (info p))) ->
    expand_peripheral m ix' k (expand_properties_peripheral top p) =
    rmap (map (expand_properties_peripheral top)) (expand_peripheral m ix k p).
  Proof.
    intros E P A. rewrite Forall_forall in P, A. set (u := rp_derive _ top) in *.
    assert (T : forall x : peripheral, p_derived_from (info x) = None ->
              match expand_properties_peripheral top x with
              | Single i => Ok [Single i]
              | Array i d => let* l := peripheral_expand m i d in Ok (map Single l)
              end = rmap (map (expand_properties_peripheral top)) match x with
              | Single i => Ok [Single i]
              | Array i d => let* l := peripheral_expand m i d in Ok (map Single l)
              end).
    { unfold expand_properties_peripheral. intros [i|i d] N; cbn in N; cbn [info ma_map]; rewrite N; cbn [is_some]; cbv zeta; [cbn; now rewrite N|].
      unfold peripheral_expand.
      rewrite (mapM_swap_same (peripheral_instance m i d) _
        (fun y => p_with y (option_map (map (fill (rp_derive (p_default_properties i) top))) (p_registers y)) (p_derived_from y))).
      - rewrite bind_rmap, rmap_bind. destruct (mapM _ _) as [l| |] eqn:X; cbn [bind]; [|reflexivity..]. cbn. f_equal. rewrite !map_map.
        apply map_ext_in. intros y I. apply mapM_ok in X. destruct (Forall2_in_r _ _ _ X y I) as (n & _ & Y). unfold peripheral_instance in Y.
        apply bind_ok in Y as (idx & _ & Y). apply bind_ok in Y as (off & _ & Y). injection Y as <-. cbn. now rewrite N.
      - intros n _. unfold peripheral_instance. rewrite rmap_bind. cbn. apply bind_same. intros idx. rewrite rmap_bind. apply bind_same. intros a. cbn. now rewrite N. }
    set (p' := expand_properties_peripheral top p).
    assert (Q : p' = ma_map (fun i => p_with i (option_map (map (fill u)) (p_registers i)) (p_derived_from i)) p)
      by (unfold p', expand_properties_peripheral; now rewrite E).
    unfold expand_peripheral.
    replace (p_derived_from (info p')) with (@None string) by (rewrite Q; destruct p; cbn; now rewrite <- E).
    rewrite E. cbn [bind fst snd].
    replace (p_name (info p')) with (p_name (info p)) by (rewrite Q; now destruct p).
    replace (p_registers (info p')) with (option_map (map (fill u)) (p_registers (info p))) by (rewrite Q; now destruct p).
    destruct (p_registers (info p)) as [rs|] eqn:R; cbn [option_map bind]; [|unfold p'; now rewrite T].
    cbn in P, A. rewrite (concatM_swap (expand_rc m ix k (opt_default (bp_new (p_name (info p))) None)) _ (fill u) (fill u)) by
      (intros x I; apply swap_rc; auto).
    rewrite !bind_rmap. destruct (concatM _ rs) as [l| |]; cbn [bind rmap]; [|reflexivity..].
    rewrite <- T by (destruct p; exact E). rewrite Q. unfold expand_properties_peripheral, u.
    destruct p as [i|i d]; cbn in E; cbn; rewrite E; reflexivity.
  Qed.
End Swap.

Lemma device_swap m fuel d : plain_device d -> clusters_add_nothing d ->
  expand m fuel (expand_properties d) = rmap expand_properties (expand m fuel d).
Proof.
  intros P A. unfold expand. pose proof (both_index d) as B.
  destruct (index_create d) as [ix|e|q], (index_create (expand_properties d)) as [ix'|e'|q']; cbn in B; try contradiction;
    [|subst; reflexivity..].
  cbn [bind]. unfold expand_properties at 1. cbn [d_peripherals d_set_peripherals].
  rewrite (concatM_swap (expand_peripheral m ix fuel) _ _ (expand_properties_peripheral (d_default_properties d))).
  - rewrite bind_rmap, rmap_bind. apply bind_same. intros ps. reflexivity.
  - intros p I. unfold plain_device in P. rewrite Forall_forall in P. destruct (P p I) as [E F]. apply swap_peripheral; auto.
    destruct (p_registers (info p)) as [rs|] eqn:R; [|constructor]. apply (A p rs _ I R). apply resolved_cons, resolved_one.
Qed.
