(** Renaming peripherals before an expansion or after it. *)
From Coq Require Import Lia.
From Verif Require Import Base BaseFacts TreeFacts Types Derive Arrays Expand SpecExpand SpecParse SpecUnion SpecRename ArrayProofs SwapProofs UnionProofs BareProofs.

Lemma same_fault_refl e : same_fault e e.
Proof. destruct e; reflexivity. Qed.
Lemma al_bind {A B C D} (h : A -> B) (k : C -> D) r r' f g : alike h r r' -> (forall x, alike k (f x) (g (h x))) ->
  alike k (bind r f) (bind r' g).
Proof.
  intros G H. destruct r as [x|e|p]; cbn in *; [rewrite G; apply H|destruct G as (e' & -> & F); now exists e'|now rewrite G].
Qed.
Lemma al_ok {A B} (h : A -> B) x y : h x = y -> alike h (Ok x) (Ok y).
Proof. now intros <-. Qed.
Lemma al_err {A B} (h : A -> B) e e' : same_fault e e' -> alike h (Err e) (Err e').
Proof. intros F. now exists e'. Qed.
Lemma al_same {A B C} (k : B -> C) (r : res A) f g : (forall x, alike k (f x) (g x)) -> alike k (bind r f) (bind r g).
Proof. intros H. destruct r; cbn; auto. eexists. split; [reflexivity|apply same_fault_refl]. Qed.
Lemma al_concat {A B C D} (h : C -> D) (g : A -> B) f f' l :
  (forall x, In x l -> alike (map h) (f x) (f' (g x))) -> alike (map h) (concatM f l) (concatM f' (map g l)).
Proof.
  induction l as [|x l IH]; cbn [map concatM]; intros H; [now apply al_ok|].
  apply al_bind with (h := map h); [apply H; now left|]. intros a. apply al_bind with (h := map h); [apply IH; intros y I; apply H; now right|].
  intros b. apply al_ok. apply map_app.
Qed.
Lemma al_concat_same {A C D} (h : C -> D) (f f' : A -> _) l :
  (forall x, In x l -> alike (map h) (f x) (f' x)) -> alike (map h) (concatM f l) (concatM f' l).
Proof. intros H. rewrite <- (map_id l) at 2. now apply al_concat. Qed.
Lemma al_mapM {A B C D} (h : C -> D) (g : A -> B) f f' l :
  (forall x, In x l -> alike h (f x) (f' (g x))) -> alike (map h) (mapM f l) (mapM f' (map g l)).
Proof.
  induction l as [|x l IH]; cbn [map mapM]; intros H; [now apply al_ok|].
  apply al_bind with (h := h); [apply H; now left|]. intros a. apply al_bind with (h := map h); [apply IH; intros y I; apply H; now right|].
  intros b. now apply al_ok.
Qed.
Lemma al_mapM_same {A C D} (h : C -> D) (f f' : A -> _) l : (forall x, In x l -> alike h (f x) (f' x)) -> alike (map h) (mapM f l) (mapM f' l).
Proof. intros H. rewrite <- (map_id l) at 2. now apply al_mapM. Qed.

Lemma split_dots s : List.length (split "." s) = S (dots s).
Proof.
  induction s as [|a s IH]; [reflexivity|]. cbn [split dots]. destruct (Ascii.eqb a "."); cbn; [now rewrite IH|].
  destruct (split "." s); cbn in *; [discriminate|exact IH].
Qed.
Lemma pop_more {A} (h x : A) t : pop (h :: x :: t) = option_map (fun q => (h :: fst q, snd q)) (pop (x :: t)).
Proof. cbn [pop]. now destruct (match t with [] => _ | _ => _ end) as [[i z]|]. Qed.
Lemma pop_length {A} (l : list A) i z : pop l = Some (i, z) -> List.length l = S (List.length i).
Proof.
  revert i z. induction l as [|a l IH]; intros i z; [discriminate|]. destruct l as [|b l].
  - cbn. intros [= <- <-]. reflexivity.
  - rewrite pop_more. destruct (pop (b :: l)) as [[j y]|]; [|discriminate]. cbn. intros [= <- <-]. cbn in *. f_equal. now apply (IH j y).
Qed.

Section Rename.
  Variable pre : string.
  Hypothesis Pre : inert pre.

  Lemma seqb_longer a b : seqb (longer pre a) (longer pre b) = seqb a b.
  Proof. clear Pre. unfold seqb, longer. induction pre as [|c p IH]; [reflexivity|]. cbn. rewrite Ascii.eqb_refl. exact IH. Qed.
  Lemma dots_longer s : dots (longer pre s) = dots s.
  Proof.
    unfold longer. induction pre as [|c p IH]; [reflexivity|]. destruct Pre as (D & _ & _ & P). cbn.
    apply Ascii.eqb_neq in D. rewrite D. now apply IH.
  Qed.
  Lemma seqb_reference n a b : seqb (reference pre n a) (reference pre n b) = seqb a b.
  Proof.
    unfold reference. destruct (Nat.leb n (dots a)) eqn:A, (Nat.leb n (dots b)) eqn:B; [apply seqb_longer| | |reflexivity].
    - unfold seqb. transitivity false; [|symmetry]; apply String.eqb_neq; intros E; [|congruence].
      rewrite <- E, dots_longer in B. congruence.
    - unfold seqb. transitivity false; [|symmetry]; apply String.eqb_neq; intros E; [|congruence].
      rewrite E, dots_longer in A. congruence.
  Qed.
  Lemma split_longer s : split "." (longer pre s) = match split "." s with h :: t => longer pre h :: t | [] => [] end.
  Proof.
    unfold longer. induction pre as [|c p IH]; [cbn; now destruct (split "." s)|]. destruct Pre as (D & _ & _ & P). cbn.
    apply Ascii.eqb_neq in D. rewrite D, IH by exact P.
    pose proof (split_nonempty "." s). now destruct (split "." s).
  Qed.
  Lemma starts_with_other a p s b : a <> b -> starts_with (String a p) (String b s) = false.
  Proof. intros N. unfold starts_with. cbn. apply Ascii.eqb_neq in N. now rewrite N. Qed.
  Lemma contains_longer s : contains "%s" (longer pre s) = contains "%s" s.
  Proof.
    unfold longer. induction pre as [|c p IH]; [reflexivity|]. destruct Pre as (_ & D & _ & P). cbn [append contains].
    rewrite starts_with_other by congruence. now apply IH.
  Qed.
  Lemma subst_longer idx s : subst_index idx (longer pre s) = longer pre (subst_index idx s).
  Proof.
    unfold subst_index, replace.
    assert (X : replace_go "[%s]" idx (longer pre s) 0 = longer pre (replace_go "[%s]" idx s 0)).
    { unfold longer. induction pre as [|c p IH]; [reflexivity|]. destruct Pre as (_ & _ & D & P). cbn [append replace_go].
      rewrite starts_with_other by congruence. now rewrite IH. }
    rewrite X. generalize (replace_go "[%s]" idx s 0). intros t. clear X.
    unfold longer. induction pre as [|c p IH]; [reflexivity|]. destruct Pre as (_ & D & _ & P). cbn [append replace_go].
    rewrite starts_with_other by congruence. now rewrite IH.
  Qed.
  Lemma dai_find_longer d idx : dai_find (rename_dim pre d) idx = option_map (rename_listed pre) (dai_find d idx).
  Proof.
    clear Pre. unfold dai_find. cbn. destruct (de_array_index d) as [a|]; [|reflexivity]. cbn.
    induction (dai_values a) as [|e l IH]; [reflexivity|]. cbn. destruct (ev_value e) as [v|]; [|exact IH]. now destruct (seqb _ _).
  Qed.
  Lemma instance_longer d n idx : instance_name (rename_dim pre d) (longer pre n) idx = longer pre (instance_name d n idx).
  Proof. unfold instance_name. rewrite dai_find_longer. destruct (dai_find d idx); [reflexivity|]. apply subst_longer. Qed.
  Lemma names_longer d n : alike (map (longer pre)) (names d n) (names (rename_dim pre d) (longer pre n)).
  Proof.
    unfold names. apply al_mapM_same. intros i _. apply al_same. intros idx. apply al_ok. symmetry. apply instance_longer.
  Qed.
  Lemma entries_longer p : alike (map (longer pre)) (entry_names p_name p) (entry_names p_name (rename_peripheral pre p)).
  Proof.
    unfold entry_names. apply al_bind with (h := map (longer pre)).
    - destruct p as [i|i d]; [now apply al_ok|]. apply names_longer.
    - intros ns. apply al_ok. rewrite map_app. now destruct p.
  Qed.

  Definition ren_bp (b : block_path) : block_path := BlockPath (longer pre (bp_peripheral b)) (bp_path b).
  Definition ren_rg (r : register_path) : register_path := RegisterPath (ren_bp (rg_block r)) (rg_name r).
  Definition ren_fp (f : field_path) : field_path := FieldPath (ren_rg (fp_register f)) (fp_name f).
  Definition ren_ep (e : enum_path) : enum_path := EnumPath (ren_fp (ep_field e)) (reference pre 3 (ep_name e)).
  Lemma bp_eqb_ren a b : bp_eqb (ren_bp a) (ren_bp b) = bp_eqb a b.
  Proof. unfold bp_eqb. cbn. now rewrite seqb_longer. Qed.
  Lemma rg_eqb_ren a b : rg_eqb (ren_rg a) (ren_rg b) = rg_eqb a b.
  Proof. unfold rg_eqb. cbn. now rewrite bp_eqb_ren. Qed.
  Lemma fp_eqb_ren a b : fp_eqb (ren_fp a) (ren_fp b) = fp_eqb a b.
  Proof. unfold fp_eqb. cbn. now rewrite rg_eqb_ren. Qed.
  Lemma ep_eqb_ren a b : ep_eqb (ren_ep a) (ren_ep b) = ep_eqb a b.
  Proof. unfold ep_eqb. cbn. now rewrite fp_eqb_ren, seqb_reference. Qed.

  Definition rename_cluster (c : cluster) : cluster := on_info (fun i => referring pre i (map (rename_rc pre) (c_children i))) c.
  Lemma rename_rc_cluster c : rename_rc pre (RCCluster c) = RCCluster (rename_cluster c).
  Proof. now destruct c. Qed.
  Lemma rename_kids c : c_children (info (rename_cluster c)) = map (rename_rc pre) (c_children (info c)).
  Proof. now destruct c. Qed.
  Definition ren_entry (e : entry) : entry :=
    match e with
    | InPeripheral k p => InPeripheral (ren_bp k) (rename_peripheral pre p)
    | InCluster k c => InCluster (ren_bp k) (rename_cluster c)
    | InRegister k r => InRegister (ren_rg k) (on_info (rename_register pre) r)
    | InField k f => InField (ren_fp k) (on_info (rename_field pre) f)
    | InEnum k e => InEnum (ren_ep k) (rename_values pre e)
    end.
  Notation ren_index := (map ren_entry).

  Lemma ren_field_at fp f : field_at (ren_fp fp) (on_info (rename_field pre) f) = ren_index (field_at fp f).
  Proof.
    unfold field_at. rewrite map_app. f_equal.
    replace (f_enumerated_values (info (on_info (rename_field pre) f))) with (map (rename_values pre) (f_enumerated_values (info f))) by now destruct f.
    induction (f_enumerated_values (info f)) as [|e l IH]; [reflexivity|]. cbn. rewrite map_app, <- IH. f_equal.
    now destruct (evs_name e).
  Qed.
  Lemma ren_add_field path f : alike ren_index (add_field path f) (add_field (ren_rg path) (on_info (rename_field pre) f)).
  Proof.
    unfold add_field. rewrite bare_names by reflexivity. apply al_same. intros ns. apply al_ok.
    induction ns as [|n ns IH]; cbn [flat_map]; [reflexivity|]. rewrite map_app, IH. f_equal. symmetry. apply (ren_field_at (new_field path n)).
  Qed.
  Lemma ren_register_at rg r : alike ren_index (register_at rg r) (register_at (ren_rg rg) (on_info (rename_register pre) r)).
  Proof.
    unfold register_at. replace (r_fields_iter (info (on_info (rename_register pre) r))) with (map (on_info (rename_field pre)) (r_fields_iter (info r)))
      by (destruct r as [i|i d]; cbn; unfold r_fields_iter; cbn; now destruct (r_fields i)).
    apply al_bind with (h := ren_index).
    - apply al_concat. intros f _. apply ren_add_field.
    - intros x. apply al_ok. now rewrite map_app.
  Qed.
  Lemma ren_add_register path r : alike ren_index (add_register path r) (add_register (ren_bp path) (on_info (rename_register pre) r)).
  Proof.
    unfold add_register. rewrite bare_names by reflexivity. apply al_same. intros ns. apply al_concat_same.
    intros n _. apply (ren_register_at (new_register path n)).
  Qed.
  Lemma ren_add_rc rc : forall path, alike ren_index (add_rc path rc) (add_rc (ren_bp path) (rename_rc pre rc)).
  Proof.
    induction rc as [r|c IH] using rc_tree_ind; intros path; [apply ren_add_register|].
    rewrite Forall_forall in IH. rewrite rename_rc_cluster. cbn [add_rc]. unfold rename_cluster at 1. rewrite bare_names by reflexivity.
    apply al_same. intros ns. apply al_concat_same. intros n _. cbv zeta. rewrite rename_kids.
    change (new_cluster (ren_bp path) n) with (ren_bp (new_cluster path n)).
    apply al_bind with (h := ren_index); [|intros a; apply al_bind with (h := ren_index); [|intros b; apply al_ok]].
    - apply al_concat. intros x I. pose proof (IH x I (new_cluster path n)) as B. destruct x as [r|x]; [exact B|].
      rewrite rename_rc_cluster. now apply al_ok.
    - apply al_concat. intros x I. pose proof (IH x I (new_cluster path n)) as B. destruct x as [r|x]; [now apply al_ok|].
      rewrite rename_rc_cluster in *. exact B.
    - now rewrite !map_app.
  Qed.
  Lemma rename_registers l : rc_registers (map (rename_rc pre) l) = map (on_info (rename_register pre)) (rc_registers l).
  Proof. induction l as [|[r|c] l IH]; cbn [map rc_registers]; [reflexivity|cbn; now rewrite IH|]. now rewrite rename_rc_cluster. Qed.
  Lemma rename_clusters l : rc_clusters (map (rename_rc pre) l) = map rename_cluster (rc_clusters l).
  Proof. induction l as [|[r|c] l IH]; cbn [map rc_clusters]; [reflexivity|exact IH|]. rewrite rename_rc_cluster. cbn. now rewrite IH. Qed.
  Lemma rename_children p : p_children (info (rename_peripheral pre p)) = map (rename_rc pre) (p_children (info p)).
  Proof. destruct p as [i|i d]; cbn; unfold p_children; cbn; now destruct (p_registers i). Qed.
  Lemma ren_add_peripheral p : alike ren_index (add_peripheral p) (add_peripheral (rename_peripheral pre p)).
  Proof.
    unfold add_peripheral. apply al_bind with (h := map (longer pre)); [apply entries_longer|]. intros ns. apply al_concat. intros n _. cbv zeta.
    rewrite rename_children, rename_registers, rename_clusters. change (bp_new (longer pre n)) with (ren_bp (bp_new n)).
    apply al_bind with (h := ren_index); [|intros a; apply al_bind with (h := ren_index); [|intros b; apply al_ok]].
    - apply al_concat. intros r _. apply ren_add_register.
    - apply al_concat. intros c _. rewrite <- rename_rc_cluster. apply ren_add_rc.
    - now rewrite !map_app.
  Qed.
  Lemma ren_create d : alike ren_index (index_create d) (index_create (rename_device pre d)).
  Proof. unfold index_create. cbn [d_peripherals rename_device]. apply al_concat. intros p _. apply ren_add_peripheral. Qed.

  Lemma lookup_ren {A} (f g : entry -> option A) (h : A -> A) ix : (forall e, g (ren_entry e) = option_map h (f e)) ->
    lookup g (ren_index ix) = option_map h (lookup f ix).
  Proof. intros H. induction ix as [|e ix IH]; [reflexivity|]. cbn [map lookup]. rewrite H, IH. now destruct (lookup f ix). Qed.

  (** ** References *)
  Lemma ren_parse_vec h t : t <> [] -> alike (fun q => (option_map ren_bp (fst q), snd q)) (bp_parse_vec (h :: t)) (bp_parse_vec (longer pre h :: t)).
  Proof.
    intros T. destruct t as [|x t]; [contradiction|]. unfold bp_parse_vec. rewrite !pop_more.
    destruct (pop_cons x t) as [[i z] ->]. now apply al_ok.
  Qed.
  Lemma ren_parse s : alike (fun q => (option_map ren_bp (fst q), snd q)) (bp_parse_str s) (bp_parse_str (reference pre 1 s)).
  Proof.
    unfold bp_parse_str, reference. pose proof (split_dots s) as L. destruct (dots s) as [|n]; cbn [Nat.leb].
    - destruct (split "." s) as [|h [|x t]]; try discriminate. now apply al_ok.
    - rewrite split_longer. destruct (split "." s) as [|h [|x t]]; try discriminate. now apply ren_parse_vec.
  Qed.
  Lemma ren_parse_field s : alike (fun q => (option_map ren_rg (fst q), snd q)) (fp_parse_str s) (fp_parse_str (reference pre 2 s)).
  Proof.
    unfold fp_parse_str, reference. pose proof (split_dots s) as L. destruct (dots s) as [|[|n]]; cbn [Nat.leb].
    - destruct (split "." s) as [|h [|x t]]; try discriminate. now apply al_ok.
    - destruct (split "." s) as [|h [|x [|y t]]]; try discriminate. reflexivity.
    - rewrite split_longer. destruct (split "." s) as [|h [|x [|y t]]]; try discriminate. unfold fp_parse_vec. rewrite (pop_more (longer pre h)), (pop_more h), pop_more.
      destruct (pop_cons y t) as [[i z] ->]. cbn [option_map unwrap bind fst snd is_nil].
      apply al_bind with (h := fun q => (option_map ren_bp (fst q), snd q)); [now apply ren_parse_vec|].
      intros [[b|] z']; cbn; [now apply al_ok|reflexivity].
  Qed.

  Section Look.
  Variable m : mode.
  Variable ix : index.
  Notation ix' := (ren_index ix).
  Lemma ren_ix_peripheral q : ix_peripheral ix' (ren_bp q) = option_map (rename_peripheral pre) (ix_peripheral ix q).
  Proof. apply lookup_ren. intros []; cbn; try reflexivity. rewrite bp_eqb_ren. now destruct (bp_eqb path q). Qed.
  Lemma ren_ix_cluster q : ix_cluster ix' (ren_bp q) = option_map rename_cluster (ix_cluster ix q).
  Proof. apply lookup_ren. intros []; cbn; try reflexivity. rewrite bp_eqb_ren. now destruct (bp_eqb path q). Qed.
  Lemma ren_ix_register q : ix_register ix' (ren_rg q) = option_map (on_info (rename_register pre)) (ix_register ix q).
  Proof. apply lookup_ren. intros []; cbn; try reflexivity. rewrite rg_eqb_ren. now destruct (rg_eqb path q). Qed.
  Lemma ren_ix_field q : ix_field ix' (ren_fp q) = option_map (on_info (rename_field pre)) (ix_field ix q).
  Proof. apply lookup_ren. intros []; cbn; try reflexivity. rewrite fp_eqb_ren. now destruct (fp_eqb path q). Qed.
  Lemma ren_ix_enum q : ix_enum ix' (ren_ep q) = option_map (rename_values pre) (ix_enum ix q).
  Proof. apply lookup_ren. intros []; cbn; try reflexivity. rewrite ep_eqb_ren. now destruct (ep_eqb path q). Qed.

  Lemma ren_field_derive i j : field_derive (rename_field pre i) (rename_field pre j) = rename_field pre (field_derive i j).
  Proof. unfold field_derive, rename_field. cbn. f_equal. now destruct (f_enumerated_values i). Qed.
  Lemma ren_register_derive i j : register_derive (rename_register pre i) (rename_register pre j) = rename_register pre (register_derive i j).
  Proof. unfold register_derive, rename_register. cbn. f_equal. now destruct (r_fields i). Qed.
  Lemma ren_peripheral_derive i j : peripheral_derive (rename_info pre i) (rename_info pre j) = rename_info pre (peripheral_derive i j).
  Proof. unfold peripheral_derive, rename_info. cbn. f_equal. now destruct (p_registers i). Qed.
  Lemma ren_cluster_derive c d : cluster_ma_derive (rename_cluster c) (rename_cluster d) = rename_cluster (cluster_ma_derive c d).
  Proof.
    unfold cluster_ma_derive, rename_cluster. apply bare_ma_derive; [reflexivity|]. intros i j. unfold cluster_derive, referring, list_or. cbn. f_equal.
    now destruct (c_children i).
  Qed.
  Lemma ren_register_ma x y : register_ma_derive (on_info (rename_register pre) x) (on_info (rename_register pre) y) = on_info (rename_register pre) (register_ma_derive x y).
  Proof. apply bare_ma_derive; [reflexivity|apply ren_register_derive]. Qed.
  Lemma ren_field_ma x y : field_ma_derive (on_info (rename_field pre) x) (on_info (rename_field pre) y) = on_info (rename_field pre) (field_ma_derive x y).
  Proof. apply bare_ma_derive; [reflexivity|apply ren_field_derive]. Qed.
  Lemma ren_peripheral_ma x y : peripheral_ma_derive (rename_peripheral pre x) (rename_peripheral pre y) = rename_peripheral pre (peripheral_ma_derive x y).
  Proof.
    unfold peripheral_ma_derive. destruct x as [i|i d], y as [j|j e]; cbn [ma_derive rename_peripheral]; rewrite ?ren_peripheral_derive; try reflexivity.
    cbn [p_name rename_info]. rewrite contains_longer. now destruct (contains "%s" (p_name i)).
  Qed.
  Lemma ren_values_derive i j : evs_derive (rename_values pre i) (rename_values pre j) = rename_values pre (evs_derive i j).
  Proof. reflexivity. Qed.

  Lemma ren_derive_peripheral k : forall p dpath,
    alike (fun q => (rename_peripheral pre (fst q), option_map ren_bp (snd q))) (derive_peripheral ix k p dpath)
          (derive_peripheral ix' k (rename_peripheral pre p) (longer pre dpath)).
  Proof.
    induction k as [|k IH]; intros p dpath; cbn [derive_peripheral]; [reflexivity|].
    replace (p_name (info (rename_peripheral pre p))) with (longer pre (p_name (info p))) by now destruct p.
    rewrite seqb_longer. destruct (seqb dpath _); [now apply al_err|]. cbv zeta.
    change (bp_new (longer pre dpath)) with (ren_bp (bp_new dpath)). rewrite ren_ix_peripheral.
    destruct (ix_peripheral ix _) as [d|]; cbn [ok_or option_map bind]; [|now apply al_err].
    rewrite ren_peripheral_ma.
    replace (p_derived_from (info (rename_peripheral pre d))) with (option_map (longer pre) (p_derived_from (info d))) by now destruct d.
    destruct (p_derived_from (info d)); cbn [option_map]; [apply IH|]. apply al_ok. cbn. f_equal.
    replace (is_none (p_registers (info (rename_peripheral pre p)))) with (is_none (p_registers (info p))); [now destruct (is_none _)|].
    destruct p as [i|i e]; cbn; now destruct (p_registers i).
  Qed.
  Lemma opt_ren {A} (f : A -> A) d o : opt_default (f d) (option_map f o) = f (opt_default d o).
  Proof. now destruct o. Qed.
  Lemma ren_derive_cluster k : forall c dpath path,
    alike (fun q => (rename_cluster (fst q), option_map ren_bp (snd q))) (derive_cluster ix k c dpath path)
          (derive_cluster ix' k (rename_cluster c) (reference pre 1 dpath) (ren_bp path)).
  Proof.
    induction k as [|k IH]; intros c dpath path; cbn [derive_cluster]; [reflexivity|].
    apply al_bind with (h := fun q => (option_map ren_bp (fst q), snd q)); [apply ren_parse|]. intros [b n]. cbv zeta. cbn [fst snd].
    rewrite opt_ren. change (new_cluster (ren_bp ?x) ?y) with (ren_bp (new_cluster x y)). rewrite bp_eqb_ren.
    replace (c_name (info (rename_cluster c))) with (c_name (info c)) by now destruct c.
    destruct (bp_eqb _ _ && seqb _ _); [now apply al_err|]. rewrite ren_ix_cluster. destruct (ix_cluster ix _) as [d|]; cbn [ok_or option_map bind]; [|now apply al_err].
    rewrite ren_cluster_derive.
    replace (c_derived_from (info (rename_cluster d))) with (option_map (reference pre 1) (c_derived_from (info d))) by now destruct d.
    destruct (c_derived_from (info d)); cbn [option_map]; [apply IH|]. apply al_ok. cbn. f_equal. rewrite rename_kids. now destruct (c_children (info c)).
  Qed.
  Lemma ren_derive_register k : forall r dpath path,
    alike (fun q => (on_info (rename_register pre) (fst q), option_map ren_rg (snd q))) (derive_register ix k r dpath path)
          (derive_register ix' k (on_info (rename_register pre) r) (reference pre 1 dpath) (ren_bp path)).
  Proof.
    induction k as [|k IH]; intros r dpath path; cbn [derive_register]; [reflexivity|].
    apply al_bind with (h := fun q => (option_map ren_bp (fst q), snd q)); [apply ren_parse|]. intros [b n]. cbv zeta. cbn [fst snd].
    rewrite opt_ren. change (new_register (ren_bp ?x) ?y) with (ren_rg (new_register x y)). rewrite bp_eqb_ren.
    replace (r_name (info (on_info (rename_register pre) r))) with (r_name (info r)) by now destruct r.
    destruct (bp_eqb _ _ && seqb _ _); [now apply al_err|]. rewrite ren_ix_register. destruct (ix_register ix _) as [d|]; cbn [ok_or option_map bind]; [|now apply al_err].
    rewrite ren_register_ma.
    replace (r_derived_from (info (on_info (rename_register pre) d))) with (option_map (reference pre 1) (r_derived_from (info d))) by now destruct d.
    destruct (r_derived_from (info d)); cbn [option_map]; [apply IH|]. apply al_ok. cbn. f_equal.
    replace (is_none (r_fields (info (on_info (rename_register pre) r)))) with (is_none (r_fields (info r))); [now destruct (is_none _)|].
    destruct r as [i|i e]; cbn; now destruct (r_fields i).
  Qed.
  Lemma ren_derive_field k : forall f dpath path,
    alike (fun q => (on_info (rename_field pre) (fst q), option_map ren_fp (snd q))) (derive_field ix k f dpath path)
          (derive_field ix' k (on_info (rename_field pre) f) (reference pre 2 dpath) (ren_rg path)).
  Proof.
    induction k as [|k IH]; intros f dpath path; cbn [derive_field]; [reflexivity|].
    apply al_bind with (h := fun q => (option_map ren_rg (fst q), snd q)); [apply ren_parse_field|]. intros [b n]. cbv zeta. cbn [fst snd].
    rewrite opt_ren. change (new_field (ren_rg ?x) ?y) with (ren_fp (new_field x y)). rewrite rg_eqb_ren.
    replace (f_name (info (on_info (rename_field pre) f))) with (f_name (info f)) by now destruct f.
    destruct (rg_eqb _ _ && seqb _ _); [now apply al_err|]. rewrite ren_ix_field. destruct (ix_field ix _) as [d|]; cbn [ok_or option_map bind]; [|now apply al_err].
    rewrite ren_field_ma.
    replace (f_derived_from (info (on_info (rename_field pre) d))) with (option_map (reference pre 2) (f_derived_from (info d))) by now destruct d.
    destruct (f_derived_from (info d)); cbn [option_map]; [apply IH|]. apply al_ok. cbn. f_equal.
    replace (is_nil (f_enumerated_values (info (on_info (rename_field pre) f)))) with (is_nil (f_enumerated_values (info f))); [now destruct (is_nil _)|].
    destruct f as [i|i e]; cbn; now destruct (f_enumerated_values i).
  Qed.

  Lemma in_split s x : In x (split "." s) -> dots x = O.
  Proof.
    clear. revert x. induction s as [|a s IH]; intros x; cbn [split]; [intros [<-|[]]; reflexivity|].
    destruct (Ascii.eqb a ".") eqn:E; [intros [<-|I]; [reflexivity|now apply IH]|].
    pose proof (split_nonempty "." s) as N. destruct (split "." s) as [|h t]; [contradiction|].
    intros [<-|I]; [cbn; rewrite E; apply IH; now left|apply IH; now right].
  Qed.
  Lemma pop_in {A} (l : list A) i z : pop l = Some (i, z) -> In z l.
  Proof.
    revert i. induction l as [|a l IH]; intros i; [discriminate|]. destruct l as [|b l].
    - intros [= <- <-]. now left.
    - rewrite pop_more. destruct (pop (b :: l)) as [[j y]|]; [|discriminate]. cbn [option_map fst snd]. intros [= <- <-]. right. now apply (IH j).
  Qed.
  Lemma ren_in_fields rg n fs : dots n = O ->
    enum_in_fields ix' (ren_rg rg) n (map (on_info (rename_field pre)) fs) =
    option_map (fun q => (rename_values pre (fst q), ren_ep (snd q))) (enum_in_fields ix rg n fs).
  Proof.
    intros N. induction fs as [|f fs IH]; [reflexivity|]. cbn [map enum_in_fields]. cbv zeta.
    replace (f_name (info (on_info (rename_field pre) f))) with (f_name (info f)) by now destruct f.
    replace (EnumPath (new_field (ren_rg rg) (f_name (info f))) n) with (ren_ep (EnumPath (new_field rg (f_name (info f))) n))
      by (unfold ren_ep, reference; cbn; rewrite N; reflexivity).
    rewrite ren_ix_enum. destruct (ix_enum ix _); [reflexivity|exact IH].
  Qed.
  Lemma is_name_ren s o : is_name (reference pre 3 s) (option_map (reference pre 3) o) = is_name s o.
  Proof. destruct o; cbn; [apply seqb_reference|reflexivity]. Qed.
  (** The field a reference from enumerated values leads to. *)
  Definition field_meant (fpath : field_path) (v : list string) (fd : string) : res field_path :=
    if is_nil v then Ok (new_field (fp_register fpath) fd)
    else let* rq := bp_parse_vec v in
         let block := opt_default (rg_block (fp_register fpath)) (fst rq) in
         Ok (FieldPath (new_register block (snd rq)) fd).
  Lemma ren_meant fpath h t fd : t <> [] -> alike ren_fp (field_meant fpath (h :: t) fd) (field_meant (ren_fp fpath) (longer pre h :: t) fd).
  Proof.
    intros T. unfold field_meant. cbn [is_nil]. apply al_bind with (h := fun q => (option_map ren_bp (fst q), snd q)); [now apply ren_parse_vec|].
    intros [b n]. apply al_ok. cbn. now rewrite opt_ren.
  Qed.
  Lemma ren_meant_short fpath v fd : (List.length v <= 1)%nat -> alike ren_fp (field_meant fpath v fd) (field_meant (ren_fp fpath) v fd).
  Proof. destruct v as [|h [|x t]]; cbn; intros L; [reflexivity|reflexivity|]. exfalso. inversion L as [|? H]. inversion H. Qed.
  Lemma ren_pieces s : exists i n, dots n = O /\ pop (split "." s) = Some (i, n) /\
    match i with
    | h :: a :: b :: t => pop (split "." (reference pre 3 s)) = Some (longer pre h :: a :: b :: t, n)
    | _ => pop (split "." (reference pre 3 s)) = Some (i, n)
    end.
  Proof.
    pose proof (split_nonempty "." s) as N. pose proof (split_dots s) as L. pose proof (in_split s) as D.
    assert (X : exists i n, pop (split "." s) = Some (i, n)).
    { destruct (split "." s) as [|h t]; [contradiction|]. destruct (pop_cons h t) as [[i n] E]. eauto. }
    destruct X as (i & n & E). exists i, n. split; [apply D; exact (pop_in _ _ _ E)|]. split; [exact E|].
    pose proof (pop_length _ _ _ E) as M. rewrite L in M. injection M as M.
    unfold reference. destruct i as [|h [|a [|b t]]]; cbn in M; rewrite M; cbn [Nat.leb]; try exact E.
    rewrite split_longer. destruct (split "." s) as [|h' [|x t']]; [discriminate|discriminate|]. rewrite pop_more in *.
    destruct (pop (x :: t')) as [[j y]|]; [|discriminate]. cbn in *. now injection E as -> -> ->.
  Qed.
  Lemma ren_found fpath fdpath ev n : dots n = O ->
    alike (option_map (fun q => (rename_values pre (fst q), ren_ep (snd q))))
      (if fp_eqb fdpath fpath && is_name n (evs_name ev) then Err (ESelfDerived KValues (fp_show fpath ++ "." ++ n)%string)
       else Ok (option_map (fun d => (d, EnumPath fdpath n)) (ix_enum ix (EnumPath fdpath n))))
      (if fp_eqb (ren_fp fdpath) (ren_fp fpath) && is_name n (evs_name (rename_values pre ev)) then Err (ESelfDerived KValues (fp_show (ren_fp fpath) ++ "." ++ n)%string)
       else Ok (option_map (fun d => (d, EnumPath (ren_fp fdpath) n)) (ix_enum ix' (EnumPath (ren_fp fdpath) n)))).
  Proof.
    intros N. rewrite fp_eqb_ren. assert (R : reference pre 3 n = n) by (unfold reference; now rewrite N).
    cbn [evs_name rename_values]. pose proof (is_name_ren n (evs_name ev)) as Q. rewrite R in Q. rewrite Q.
    destruct (fp_eqb fdpath fpath && is_name n (evs_name ev)); [now apply al_err|]. apply al_ok.
    replace (EnumPath (ren_fp fdpath) n) with (ren_ep (EnumPath fdpath n)) by (unfold ren_ep; cbn; now rewrite R).
    rewrite ren_ix_enum. now destruct (ix_enum ix _).
  Qed.
  Lemma ren_derive_enum k : forall ev dpath fpath,
    alike (fun q => (rename_values pre (fst q), ren_ep (snd q))) (derive_enum ix k ev dpath fpath)
          (derive_enum ix' k (rename_values pre ev) (reference pre 3 dpath) (ren_fp fpath)).
  Proof.
    induction k as [|k IH]; intros ev dpath fpath; cbn [derive_enum]; [reflexivity|].
    cbn [evs_name rename_values]. rewrite is_name_ren. destruct (is_name dpath (evs_name ev)); [now apply al_err|].
    destruct (ren_pieces dpath) as (i & n & N & E & E'). rewrite E.
    assert (E2 : pop (split "." (reference pre 3 dpath)) = Some (match i with h :: a :: b :: t => longer pre h :: a :: b :: t | _ => i end, n))
      by (destruct i as [|h [|a [|b t]]]; exact E').
    rewrite E2. clear E'. cbn [unwrap bind snd fst]. cbv zeta.
    eapply al_bind with (h := option_map (fun q => (rename_values pre (fst q), ren_ep (snd q)))).
    - destruct i as [|h [|a [|b t]]].
      + cbn [pop]. apply al_ok. cbn [ren_fp fp_register]. rewrite ren_ix_register. destruct (ix_register ix _) as [r|]; [|reflexivity]. cbn [option_map].
        rewrite <- ren_in_fields by exact N. f_equal. destruct r as [j|j d]; cbn; unfold r_fields_iter; cbn; now destruct (r_fields j).
      + cbn [pop]. fold (field_meant fpath [] h) (field_meant (ren_fp fpath) [] h).
        eapply al_bind with (h := ren_fp); [apply ren_meant_short; cbn; repeat constructor|]. intros fd. now apply ren_found.
      + cbn [pop]. fold (field_meant fpath [h] a) (field_meant (ren_fp fpath) [h] a).
        eapply al_bind with (h := ren_fp); [apply ren_meant_short; cbn; repeat constructor|]. intros fd. now apply ren_found.
      + rewrite !(pop_more _ a). rewrite (pop_more a b t). destruct (pop_cons b t) as [[j z] ->]. cbn [option_map fst snd].
        fold (field_meant fpath (h :: a :: j) z) (field_meant (ren_fp fpath) (longer pre h :: a :: j) z).
        eapply al_bind with (h := ren_fp); [now apply ren_meant|]. intros fd. now apply ren_found.
    - intros [[d ep]|]; cbn [option_map fst snd]; [|now apply al_err]. cbn [evs_derived_from rename_values].
      destruct (evs_derived_from d) as [s|]; cbn [option_map]; [|now apply al_ok]. apply (IH (evs_derive ev d) s (ep_field ep)).
  Qed.

  Lemma ren_expand_enum k fpath ev : alike (rename_values pre) (expand_enum ix k fpath ev) (expand_enum ix' k (ren_fp fpath) (rename_values pre ev)).
  Proof.
    unfold expand_enum. cbn [evs_derived_from rename_values]. destruct (evs_derived_from ev) as [s|]; cbn [option_map].
    - eapply al_bind; [apply (ren_derive_enum k (evs_underive ev))|]. intros [x y]. now apply al_ok.
    - now apply al_ok.
  Qed.
  Lemma ren_expand_field k path f : alike (map (on_info (rename_field pre))) (expand_field m ix k path f)
    (expand_field m ix' k (ren_rg path) (on_info (rename_field pre) f)).
  Proof.
    unfold expand_field. apply al_bind with (h := fun q => (on_info (rename_field pre) (fst q), option_map ren_fp (snd q))).
    { replace (f_derived_from (info (on_info (rename_field pre) f))) with (option_map (reference pre 2) (f_derived_from (info f))) by now destruct f.
      destruct (f_derived_from (info f)) as [s|]; cbn [option_map]; [|now apply al_ok].
      replace (ma_map f_underive (on_info (rename_field pre) f)) with (on_info (rename_field pre) (ma_map f_underive f)) by now destruct f.
      apply ren_derive_field. }
    intros [z o]. cbv zeta. cbn [fst snd].
    replace (f_name (info (on_info (rename_field pre) z))) with (f_name (info z)) by now destruct z.
    change (new_field (ren_rg path) (f_name (info z))) with (ren_fp (new_field path (f_name (info z)))). rewrite opt_ren.
    replace (f_enumerated_values (info (on_info (rename_field pre) z))) with (map (rename_values pre) (f_enumerated_values (info z))) by now destruct z.
    apply al_bind with (h := map (rename_values pre)); [apply al_mapM; intros e _; apply ren_expand_enum|]. intros evs.
    destruct z as [i|i d]; cbn [ma_map on_info]; [now apply al_ok|].
    apply al_bind with (h := map (rename_field pre)).
    - apply al_mapM_same. intros n _. unfold field_instance. cbn. apply al_same. intros idx. apply al_same. intros off. now apply al_ok.
    - intros l. apply al_ok. now rewrite !map_map.
  Qed.
  Lemma ren_expand_register k path r :
    alike (map (rename_rc pre)) (expand_register_array m ix k path r) (expand_register_array m ix' k (ren_bp path) (on_info (rename_register pre) r)).
  Proof.
    unfold expand_register_array. apply al_bind with (h := fun q => (on_info (rename_register pre) (fst q), option_map ren_rg (snd q))).
    { replace (r_derived_from (info (on_info (rename_register pre) r))) with (option_map (reference pre 1) (r_derived_from (info r))) by now destruct r.
      destruct (r_derived_from (info r)) as [s|]; cbn [option_map]; [|now apply al_ok].
      replace (ma_map r_underive (on_info (rename_register pre) r)) with (on_info (rename_register pre) (ma_map r_underive r)) by now destruct r.
      apply ren_derive_register. }
    intros [z o]. cbv zeta. cbn [fst snd].
    replace (r_name (info (on_info (rename_register pre) z))) with (r_name (info z)) by now destruct z.
    change (new_register (ren_bp path) (r_name (info z))) with (ren_rg (new_register path (r_name (info z)))). rewrite opt_ren.
    set (rpath := opt_default _ _).
    apply al_bind with (h := on_info (rename_register pre)).
    - replace (r_fields (info (on_info (rename_register pre) z))) with (option_map (map (on_info (rename_field pre))) (r_fields (info z))) by now destruct z.
      destruct (r_fields (info z)) as [fs|]; cbn [option_map]; [|now apply al_ok].
      apply al_bind with (h := map (on_info (rename_field pre))).
      + apply al_concat. intros f _. apply ren_expand_field.
      + intros l. apply al_ok. now destruct z.
    - intros x. destruct x as [i|i d]; cbn [on_info]; [now apply al_ok|]. apply al_bind with (h := map (rename_register pre)).
      + apply al_mapM_same. intros n _. unfold register_instance. cbn. apply al_same. intros idx. apply al_same. intros off. now apply al_ok.
      + intros l. apply al_ok. now rewrite !map_map.
  Qed.
  Lemma ren_expand_cluster (c c' : cluster_info) : c_name c' = c_name c -> c_address_offset c' = c_address_offset c ->
    c_children c' = map (rename_rc pre) (c_children c) -> alike (map (rename_rc pre)) (expand_cluster m c) (expand_cluster m c').
  Proof.
    intros N O C. unfold expand_cluster. rewrite C, N, O. apply al_mapM. intros x _. destruct x as [r|x]; [|rewrite rename_rc_cluster; reflexivity].
    cbn [rename_rc]. replace (r_address_offset (info (on_info (rename_register pre) r))) with (r_address_offset (info r)) by now destruct r.
    apply al_same. intros off. apply al_ok. now destruct r.
  Qed.
  Lemma ren_expand_rc k : forall path rc, alike (map (rename_rc pre)) (expand_rc m ix k path rc) (expand_rc m ix' k (ren_bp path) (rename_rc pre rc)).
  Proof.
    induction k as [|k IH]; intros path rc; [reflexivity|]. destruct rc as [r|c]; [apply ren_expand_register|].
    rewrite rename_rc_cluster. cbn [expand_rc]. apply al_bind with (h := fun q => (rename_cluster (fst q), option_map ren_bp (snd q))).
    { assert (N : c_derived_from (info (rename_cluster c)) = option_map (reference pre 1) (c_derived_from (info c))) by now destruct c.
      unfold cluster_info, cluster in *. rewrite N. clear N.
      destruct (c_derived_from (info c)) as [s|]; cbn [option_map]; [|now apply al_ok].
      pose proof (ren_derive_cluster k (ma_map (fun i => c_with i (c_children i) None) c) s path) as B.
      destruct c; exact B. }
    intros [z o]. cbv zeta. cbn [fst snd]. rewrite rename_kids.
    replace (c_name (info (rename_cluster z))) with (c_name (info z)) by now destruct z.
    change (new_cluster (ren_bp path) (c_name (info z))) with (ren_bp (new_cluster path (c_name (info z)))). rewrite opt_ren.
    apply al_bind with (h := map (rename_rc pre)); [apply al_concat; intros x _; apply IH|].
    intros kids. destruct z as [i|i d]; cbn [rename_cluster on_info ma_map].
    - now apply ren_expand_cluster.
    - apply al_concat_same. intros n _. unfold cluster_instance.
      cbn [c_name c_address_offset c_with referring c_description c_alternate_cluster c_header_struct_name c_default_properties c_children c_derived_from].
      rewrite !bind_assoc. apply al_same. intros idx. rewrite !bind_assoc. apply al_same. intros off. cbn [bind]. now apply ren_expand_cluster.
  Qed.
  Lemma ren_expand_peripheral k p :
    alike (map (rename_peripheral pre)) (expand_peripheral m ix k p) (expand_peripheral m ix' k (rename_peripheral pre p)).
  Proof.
    unfold expand_peripheral. apply al_bind with (h := fun q => (rename_peripheral pre (fst q), option_map ren_bp (snd q))).
    { replace (p_derived_from (info (rename_peripheral pre p))) with (option_map (longer pre) (p_derived_from (info p))) by now destruct p.
      destruct (p_derived_from (info p)) as [s|]; cbn [option_map]; [|now apply al_ok].
      replace (ma_map (fun i => p_with i (p_registers i) None) (rename_peripheral pre p))
        with (rename_peripheral pre (ma_map (fun i => p_with i (p_registers i) None) p)) by now destruct p.
      apply ren_derive_peripheral. }
    intros [z o]. cbv zeta. cbn [fst snd].
    replace (p_name (info (rename_peripheral pre z))) with (longer pre (p_name (info z))) by now destruct z.
    change (bp_new (longer pre (p_name (info z)))) with (ren_bp (bp_new (p_name (info z)))). rewrite opt_ren.
    apply al_bind with (h := rename_peripheral pre).
    - replace (p_registers (info (rename_peripheral pre z))) with (option_map (map (rename_rc pre)) (p_registers (info z))) by now destruct z.
      destruct (p_registers (info z)) as [rs|]; cbn [option_map]; [|now apply al_ok].
      apply al_bind with (h := map (rename_rc pre)).
      + apply al_concat. intros x _. apply ren_expand_rc.
      + intros l. apply al_ok. now destruct z.
    - intros x. destruct x as [i|i d]; cbn [rename_peripheral]; [now apply al_ok|]. apply al_bind with (h := map (rename_info pre)).
      + apply al_mapM_same. intros n _. unfold peripheral_instance. apply al_same. intros idx. cbn [p_base_address rename_info].
        apply al_bind with (h := fun x => x); [unfold base_at; cbn [de_increment rename_dim]; destruct (bind _ _); cbn; eauto using same_fault_refl|]. intros off. apply al_ok.
        unfold rename_info. cbn. rewrite instance_longer. f_equal. unfold instance_description. rewrite dai_find_longer. now destruct (dai_find d idx).
      + intros l. apply al_ok. now rewrite !map_map.
  Qed.
  End Look.

  Lemma ren_expand m fuel d : alike (rename_device pre) (expand m fuel d) (expand m fuel (rename_device pre d)).
  Proof.
    unfold expand. apply al_bind with (h := ren_index); [apply ren_create|]. intros ix.
    apply al_bind with (h := map (rename_peripheral pre)).
    - cbn [d_peripherals rename_device]. apply al_concat. intros p _. apply ren_expand_peripheral.
    - intros ps. now apply al_ok.
  Qed.
End Rename.

(** ** Names that cannot clash *)
Lemma expand_entries m fuel d e p : expand m fuel d = Ok e -> In p (d_peripherals d) -> exists ns, entry_names p_name p = Ok ns.
Proof.
  unfold expand, index_create. intros H I. apply bind_ok in H as (ix & H & _). apply concatM_ok in H as (ls & H & _).
  destruct (Forall2_in_l _ _ _ H _ I) as (l & _ & A). unfold add_peripheral in A. apply bind_ok in A as (ns & A & _). eauto.
Qed.
Lemma called_longer pre m fuel d e p n : inert pre -> expand m fuel d = Ok e -> In p (d_peripherals (rename_device pre d)) ->
  is_called p_name p n -> exists n', n = longer pre n'.
Proof.
  intros Pre H I C. cbn in I. apply in_map_iff in I as (q & <- & I). destruct (expand_entries _ _ _ _ _ H I) as (ns & E).
  pose proof (entries_longer pre Pre q) as A. rewrite E in A. cbn in A. apply (PlaceProofs.entry_names_complete _ _ _ _ A) in C.
  apply in_map_iff in C as (n' & <- & _). eauto.
Qed.
Fixpoint lows (n : nat) : string := match n with O => "" | S k => String "_" (lows k) end.
Lemma lows_inert n : inert (lows n).
Proof. induction n; cbn; repeat split; try discriminate; assumption. Qed.
Lemma lows_length n s : String.length (longer (lows n) s) = (n + String.length s)%nat.
Proof. unfold longer. induction n; cbn; [reflexivity|now rewrite IHn]. Qed.
Lemma short_names l : (forall p, In p l -> exists ns, entry_names p_name p = Ok ns) ->
  exists k, forall p n, In p l -> is_called p_name p n -> (String.length n < k)%nat.
Proof.
  assert (X : forall ns : list string, exists k, forall n, In n ns -> (String.length n < k)%nat).
  { induction ns as [|s ns (k & IH)]; [exists O; intros n []|]. exists (Nat.max (S (String.length s)) k). intros n [<-|I]; [|specialize (IH n I)]; lia. }
  induction l as [|p l IH]; intros H; [exists O; intros p n []|].
  destruct IH as (k & IH); [intros q I; apply H; now right|]. destruct (H p) as (ns & E); [now left|]. destruct (X ns) as (k' & K).
  exists (Nat.max k k'). intros q n [<-|I] C.
  - apply (PlaceProofs.entry_names_complete _ _ _ _ E) in C. specialize (K n C). lia.
  - specialize (IH q n I C). lia.
Qed.
Lemma rename_merge m fuel pre a b d ea eb : inert pre -> expand m fuel a = Ok ea -> expand m fuel b = Ok eb ->
  (forall p n, In p (d_peripherals b) -> ~ is_called p_name p (pre ++ n)%string) ->
  interleaved (d_peripherals (rename_device pre a)) (d_peripherals b) (d_peripherals d) ->
  exists e, expand m fuel d = Ok e /\ interleaved (d_peripherals (rename_device pre ea)) (d_peripherals eb) (d_peripherals e).
Proof.
  intros Pre A B N I. pose proof (ren_expand pre Pre m fuel a) as R. rewrite A in R. cbn in R.
  eapply expand_union; [exact I| |exact R|exact B].
  intros p q n P Q C D. destruct (called_longer _ _ _ _ _ _ _ Pre A P C) as (n' & ->). exact (N q n' Q D).
Qed.
Lemma rename_room m fuel b eb : expand m fuel b = Ok eb ->
  exists pre, inert pre /\ forall p n, In p (d_peripherals b) -> ~ is_called p_name p (pre ++ n)%string.
Proof.
  intros B. destruct (short_names (d_peripherals b)) as (k & K); [intros p I; exact (expand_entries _ _ _ _ _ B I)|].
  exists (lows k). split; [apply lows_inert|]. intros p n I C. specialize (K p _ I C). pose proof (lows_length k n) as L. unfold longer in L. lia.
Qed.

(** ** With the properties filled in *)
Lemma rename_fill pre rc : forall q, expand_properties_rc q (rename_rc pre rc) = rename_rc pre (expand_properties_rc q rc).
Proof.
  induction rc as [r|c IH] using rc_tree_ind; intros q.
  - cbn. destruct r as [i|i d]; cbn; now destruct (r_derived_from i).
  - rewrite Forall_forall in IH. rewrite rename_rc_cluster. cbn [expand_properties_rc].
    assert (X : forall u, map (expand_properties_rc u) (map (rename_rc pre) (c_children (info c))) = map (rename_rc pre) (map (expand_properties_rc u) (c_children (info c)))).
    { intros u. rewrite !map_map. apply map_ext_in. intros x I. now apply IH. }
    clear IH. destruct c as [i|i d]; cbn in *; (destruct (c_derived_from i) eqn:E; cbn; [reflexivity|]; unfold referring, c_with; cbn; now rewrite X).
Qed.
Lemma rename_filled pre d : expand_properties (rename_device pre d) = rename_device pre (expand_properties d).
Proof.
  unfold expand_properties. cbn [d_peripherals d_default_properties rename_device d_set_peripherals].
  unfold rename_device, d_set_peripherals. cbn. f_equal. rewrite !map_map. apply map_ext. intros p.
  unfold expand_properties_peripheral. destruct p as [i|i e]; cbn; destruct (p_derived_from i) eqn:E; cbn; rewrite ?E; try reflexivity;
    (f_equal; unfold rename_info, p_with; cbn; f_equal; destruct (p_registers i) as [rs|]; [|reflexivity]; cbn; f_equal;
      rewrite !map_map; apply map_ext; intros x; apply rename_fill).
Qed.
