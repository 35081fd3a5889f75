(** Arrays written out. *)
From Verif Require Import Base BaseFacts TreeFacts Types Arrays Expand SpecArray SpecExpand SpecFlat SpecWritten ExpandProofs MeaningProofs ExactProofs.

Lemma concat_parts {A B C} (f : A -> res (list C)) (g : B -> res (list C)) (R : A -> list B -> Prop) l ls out :
  Forall2 R l ls -> (forall a k o, In a l -> R a k -> f a = Ok o -> concatM g k = Ok o) -> concatM f l = Ok out -> concatM g (List.concat ls) = Ok out.
Proof.
  intros F H. revert out. induction F as [|a k l ls Ra F IH]; intros out E; cbn [concatM List.concat] in *; [exact E|].
  apply bind_ok in E as (o & Eo & E). apply bind_ok in E as (os & Eos & E). injection E as <-.
  rewrite concatM_app, (H a k o (or_introl eq_refl) Ra Eo). cbn [bind]. rewrite (IH (fun a k o I => H a k o (or_intror I)) os Eos). reflexivity.
Qed.
Lemma concatM_map {A B C} (f : B -> res (list C)) (g : A -> B) l : concatM f (map g l) = concatM (fun a => f (g a)) l.
Proof. induction l as [|a l IH]; [reflexivity|]. cbn [map concatM]. now rewrite IH. Qed.
Lemma concat_one {A B} (f : A -> res (list B)) x : concatM f [x] = f x.
Proof. cbn [concatM]. destruct (f x) as [l| |]; cbn [bind]; [now rewrite app_nil_r|reflexivity..]. Qed.

Lemma instances_in {A} (one : A -> dim_element -> N -> A -> Prop) x is y : instances_of one x is -> In y is ->
  match x with Single i => y = i | Array i d => exists k, one i d k y end.
Proof.
  destruct x as [i|i d]; cbn [instances_of]; [intros -> [->|[]]; reflexivity|]. intros [L I] Y. apply In_nth_error in Y as (n & Y).
  assert (Hn : N.of_nat n < de_dim d). { rewrite <- L. unfold len_N. assert (n < List.length is)%nat by (apply nth_error_Some; congruence). lia. }
  destruct (I _ Hn) as (z & Z & O). unfold nth_N in Z. rewrite Nnat.Nat2N.id in Z. assert (z = y) by congruence. subst z. eauto.
Qed.
Lemma instances_map {A} (one : A -> dim_element -> N -> A -> Prop) (f : A -> A) x is : (forall i d k y, one i d k y -> one (f i) d k (f y)) ->
  instances_of one x is -> instances_of one (mapped f x) (map f is).
Proof.
  intros H. destruct x as [i|i d]; cbn [instances_of mapped]; [intros ->; reflexivity|]. intros [L I]. split; [unfold len_N in *; now rewrite map_length|].
  intros k Hk. destruct (I k Hk) as (y & Y & O). exists (f y). split; [unfold nth_N in *; now rewrite nth_error_map, Y|now apply H].
Qed.
Section Written.
  Variable m : mode.
  Variables ix ix' : index.

  (** ** Fields *)
  Lemma enums_same jx fuel fp l : Forall (fun e => evs_derived_from e = None) l -> mapM (expand_enum jx fuel fp) l = Ok l.
  Proof.
    induction 1 as [|e l H F IH]; [reflexivity|]. cbn [mapM]. unfold expand_enum at 1. rewrite H. cbn [bind]. now rewrite IH.
  Qed.
  Lemma field_plain jx fuel rp f : underived_field f -> expand_field m jx fuel rp f =
    match f with Single i => Ok [Single i] | Array i d => let* l := field_expand m i d in Ok (map Single l) end.
  Proof.
    intros [D E]. unfold expand_field. rewrite D. cbn [bind fst snd opt_default]. rewrite (enums_same _ _ _ _ E). cbn [bind].
    now destruct f as [[]|[] d].
  Qed.
  Lemma field_repeated fuel rp rp' fuel' f l out : underived_field f -> repeated (field_instance_of m) f l ->
    expand_field m ix fuel rp f = Ok out -> concatM (expand_field m ix' fuel' rp') l = Ok out.
  Proof.
    intros U R E. rewrite (field_plain _ _ _ _ U) in E. destruct R as [->|(is & I & ->)].
    - now rewrite concat_one, (field_plain _ _ _ _ U).
    - destruct f as [i|i d]; [cbn in I; subst is; injection E as <-; cbn [map]; now rewrite concat_one, (field_plain _ _ _ _ U)|].
      apply bind_ok in E as (k & K & E). injection E as <-. apply field_instances in K.
      rewrite <- (instances_fun _ (field_instance_fun m) _ _ _ I K). apply concatM_singles. intros a A. apply in_map_iff in A as (y & <- & A).
      rewrite field_plain; [reflexivity|]. destruct (instances_in _ _ _ _ I A) as (n & j & _ & _ & _ & _ & _ & _ & _ & _ & _ & _ & Ev & Df).
      destruct U as [U1 U2]. split; cbn [info] in *; congruence.
  Qed.
  Definition fields_done (jx : index) (fuel : nat) (rp : register_path) (o : option (list field)) : res (option (list field)) :=
    match o with Some fs => let* l := concatM (expand_field m jx fuel rp) fs in Ok (Some l) | None => Ok None end.
  Lemma fields_repeated fuel rp rp' fuel' o o' out : Forall underived_field (or_empty o) -> fields_written m o o' ->
    fields_done ix fuel rp o = Ok out -> fields_done ix' fuel' rp' o' = Ok out.
  Proof.
    intros U W E. destruct o as [fs|], o' as [fs'|]; cbn in W; try contradiction; [|exact E]. destruct W as (ls & F & ->). cbn in E |- *.
    apply bind_ok in E as (l & L & E). injection E as <-. assert (G : concatM (expand_field m ix' fuel' rp') (List.concat ls) = Ok l); [|now rewrite G].
    eapply concat_parts; [exact F| |exact L]. intros f k out I R K. eapply field_repeated; [|exact R|exact K]. rewrite Forall_forall in U. now apply U.
  Qed.

  (** ** Registers *)
  Lemma register_plain jx fuel path r : r_derived_from (info r) = None -> expand_register_array m jx fuel path r =
    let* o := fields_done jx fuel (new_register path (r_name (info r))) (r_fields (info r)) in
    match mapped (fun i => register_with i o) r with
    | Single i => Ok [RCRegister (Single i)]
    | Array i d => let* l := register_expand m i d in Ok (map (fun i => RCRegister (Single i)) l)
    end.
  Proof.
    intros D. unfold expand_register_array, fields_done. rewrite D. cbn [bind fst snd opt_default].
    destruct (r_fields (info r)) as [fs|] eqn:F; cbn [bind].
    - destruct (concatM _ fs) as [l| |]; cbn [bind]; [|reflexivity..]. now destruct r as [i|i d].
    - destruct r as [[]|[] d]; cbn in *; subst; reflexivity.
  Qed.
  Lemma register_instance_with i d k y o : register_instance_of m i d k y -> register_instance_of m (register_with i o) d k (register_with y o).
  Proof. intros (j & H). exists j. cbn. decompose [and] H. conjs; assumption || reflexivity. Qed.
  Lemma register_repeated fuel path path' fuel' r o l out : r_derived_from (info r) = None -> Forall underived_field (or_empty (r_fields (info r))) ->
    fields_written m (r_fields (info r)) o -> repeated (register_instance_of m) (mapped (fun i => register_with i o) r) l ->
    expand_register_array m ix fuel path r = Ok out -> concatM (expand_register_array m ix' fuel' path') l = Ok out.
  Proof.
    intros D U W R E. rewrite (register_plain _ _ _ _ D) in E. apply bind_ok in E as (fs & Fs & E).
    assert (G : forall rp, fields_done ix' fuel' rp o = Ok fs) by (intros rp; eapply fields_repeated; eauto).
    destruct R as [->|(is & I & ->)].
    - rewrite concat_one, register_plain by (destruct r; exact D). replace (r_fields (info (mapped (fun i => register_with i o) r))) with o by now destruct r.
      rewrite G. cbn [bind]. now destruct r.
    - assert (K : forall y, In y is -> expand_register_array m ix' fuel' path' (Single y) = Ok [RCRegister (Single (register_with y fs))]).
      { intros y Y. assert (r_derived_from y = None /\ r_fields y = o) as [D' F'].
        { pose proof (instances_in _ _ _ _ I Y) as Q. destruct r as [i|i d]; cbn in Q, D; [subst y; now split|]. destruct Q as (n & j & Q). cbn in Q.
          decompose [and] Q. split; congruence. }
        rewrite register_plain by exact D'. cbn [info]. rewrite F', G. reflexivity. }
      rewrite concatM_map, (concatM_pure _ (fun y => [RCRegister (Single (register_with y fs))])) by exact K.
      rewrite flat_map_concat_map. assert (X : forall T (f : register_info -> T) l, List.concat (map (fun y => [f y]) l) = map f l)
        by (intros T f l; induction l as [|? ? IH]; cbn; congruence). rewrite X. clear X.
      apply (instances_map _ (fun i => register_with i fs)) in I; [|intros; now apply register_instance_with].
      rewrite <- (map_map (fun y => register_with y fs) (fun i => RCRegister (Single i))).
      destruct r as [i|i d]; cbn [mapped] in *.
      + cbn in I. rewrite I. exact E.
      + apply bind_ok in E as (k & Ek & E). injection E as <-. apply register_instances in Ek.
        now rewrite (instances_fun _ (register_instance_fun m) _ _ _ I Ek).
  Qed.

  (** ** Clusters *)
  Lemma cluster_known c c' : c_name c = c_name c' -> c_address_offset c = c_address_offset c' -> c_children c = c_children c' ->
    expand_cluster m c = expand_cluster m c'.
  Proof. unfold expand_cluster. now intros -> -> ->. Qed.
  Lemma instance_children i d n x : cluster_instance m i d n = Ok x -> c_children x = c_children i.
  Proof. unfold cluster_instance. intros H. apply bind_ok in H as (idx & _ & H). apply bind_ok in H as (off & _ & H). now injection H as <-. Qed.
  Lemma child_repeated fuel : forall rc l path path' out, underived_child rc -> child_written m rc l ->
    expand_rc m ix fuel path rc = Ok out -> concatM (expand_rc m ix' fuel path') l = Ok out.
  Proof.
    induction fuel as [|fuel IH]; intros rc l path path' out U W E; [discriminate E|].
    destruct W as [r o l W R|c ls l F R].
    - inversion U as [? D Uf|]; subst. rewrite concatM_map. cbn [expand_rc] in *. eapply register_repeated; eauto.
    - inversion U as [|? D Uc]; subst. cbn [expand_rc] in E. unfold cluster_info, cluster in *. rewrite D in E. cbn [bind fst snd opt_default] in E.
      apply bind_ok in E as (kids & Ek & E).
      assert (G : forall q, concatM (expand_rc m ix' fuel q) (List.concat ls) = Ok kids).
      { intros q. eapply concat_parts; [exact F| |exact Ek]. intros a k o A Wa Ea. rewrite Forall_forall in Uc. exact (IH a k _ q o (Uc a A) Wa Ea). }
      rewrite concatM_map. destruct R as [->|(is & I & ->)].
      + rewrite concat_one. cbn [expand_rc]. destruct c as [i|i d]; cbn in D |- *; rewrite D; cbn [bind fst snd opt_default info c_children];
          rewrite G; cbn [bind]; exact E.
      + rewrite concatM_map.
        assert (K : forall y, In y is -> expand_rc m ix' (S fuel) path' (RCCluster (Single y)) = expand_cluster m (c_with y kids None)).
        { intros y Y. assert (c_derived_from y = None /\ c_children y = List.concat ls) as [D' F'].
          { pose proof (instances_in _ _ _ _ I Y) as Q. destruct c as [i|i d]; cbn in Q, D; [subst y; now split|]. destruct Q as (n & _ & Q1 & Q2).
            cbn in Q1, Q2. split; congruence. }
          cbn [expand_rc info]. rewrite D'. cbn [bind fst snd opt_default info]. rewrite F', G. cbn [bind]. cbn [ma_map]. now rewrite D'. }
        rewrite (concatM_ext _ (fun y => expand_cluster m (c_with y kids None))) by exact K. clear K G IH.
        destruct c as [i|i d]; cbn [mapped ma_map instances_of] in *.
        * subst is. rewrite concat_one. exact E.
        * apply concatM_split in E as (bs & Eb & E).
          assert (C : Forall (fun b => c_children b = kids) bs).
          { apply mapM_ok in Eb. clear -Eb. induction Eb; constructor; auto. now apply instance_children in H. }
          change (cluster_expand m (c_with i kids (c_derived_from i)) d = Ok bs) in Eb. apply cluster_instances in Eb.
          assert (I' : instances_of (cluster_instance_of m) (Array (c_with i kids (c_derived_from i)) d) is).
          { destruct I as [L I]. split; [exact L|]. intros k Hk. destruct (I k Hk) as (y & Y & (j & J) & _). exists y. split; [exact Y|]. exists j. exact J. }
          pose proof (cluster_instances_fun _ _ _ _ I' Eb) as S. clear -S C E. rewrite <- E. clear E. revert bs S C.
          induction is as [|y is IH]; intros [|b bs] S C; try discriminate S; [reflexivity|]. cbn [map] in S. injection S as S1 S2 S3.
          inversion C as [|? ? Cb Cs]; subst. cbn [concatM]. rewrite (IH bs S3 Cs).
          f_equal. apply cluster_known; cbn; congruence.
  Qed.

  (** ** Peripherals *)
  Definition children_done (jx : index) (fuel : nat) (bp : block_path) (o : option (list register_cluster)) : res (option (list register_cluster)) :=
    match o with Some rs => let* l := concatM (expand_rc m jx fuel bp) rs in Ok (Some l) | None => Ok None end.
  Lemma peripheral_plain jx fuel p : p_derived_from (info p) = None -> expand_peripheral m jx fuel p =
    let* o := children_done jx fuel (bp_new (p_name (info p))) (p_registers (info p)) in
    match mapped (fun i => peripheral_with i o) p with
    | Single i => Ok [Single i]
    | Array i d => let* l := peripheral_expand m i d in Ok (map Single l)
    end.
  Proof.
    intros D. unfold expand_peripheral, children_done. rewrite D. cbn [bind fst snd opt_default].
    destruct (p_registers (info p)) as [rs|] eqn:F; cbn [bind].
    - destruct (concatM _ rs) as [l| |]; cbn [bind]; [|reflexivity..]. now destruct p as [i|i d].
    - destruct p as [[]|[] d]; cbn in *; subst; reflexivity.
  Qed.
  Lemma peripheral_instance_with i d k y o : peripheral_instance_of m i d k y -> peripheral_instance_of m (peripheral_with i o) d k (peripheral_with y o).
  Proof. intros (j & H). exists j. cbn. decompose [and] H. conjs; assumption || reflexivity. Qed.
  Lemma peripheral_repeated fuel p l out : underived_peripheral p -> peripheral_written m p l ->
    expand_peripheral m ix fuel p = Ok out -> concatM (expand_peripheral m ix' fuel) l = Ok out.
  Proof.
    intros [D U] (o & W & R) E. rewrite (peripheral_plain _ _ _ D) in E. apply bind_ok in E as (rs & Rs & E).
    assert (G : forall bp, children_done ix' fuel bp o = Ok rs).
    { intros bp. destruct (p_registers (info p)) as [l0|], o as [l1|]; try contradiction; [|exact Rs]. destruct W as (ls & F & ->). cbn in Rs |- *.
      apply bind_ok in Rs as (k & K & Rs). injection Rs as <-.
      assert (G : concatM (expand_rc m ix' fuel bp) (List.concat ls) = Ok k); [|now rewrite G].
      eapply concat_parts; [exact F| |exact K]. intros a q z A Wa Ea. cbn [or_empty] in U. rewrite Forall_forall in U.
      exact (child_repeated fuel a q _ bp z (U a A) Wa Ea). }
    destruct R as [->|(is & I & ->)].
    - rewrite concat_one, peripheral_plain by (destruct p; exact D). replace (p_registers (info (mapped (fun i => peripheral_with i o) p))) with o by now destruct p.
      rewrite G. cbn [bind]. now destruct p.
    - assert (K : forall y, In y is -> expand_peripheral m ix' fuel (Single y) = Ok [Single (peripheral_with y rs)]).
      { intros y Y. assert (p_derived_from y = None /\ p_registers y = o) as [D' F'].
        { pose proof (instances_in _ _ _ _ I Y) as Q. destruct p as [i|i d]; cbn in Q, D; [subst y; now split|]. destruct Q as (n & j & Q). cbn in Q.
          decompose [and] Q. split; congruence. }
        rewrite peripheral_plain by exact D'. cbn [info]. rewrite F', G. reflexivity. }
      rewrite concatM_map, (concatM_pure _ (fun y => [Single (peripheral_with y rs)])) by exact K.
      rewrite flat_map_concat_map. assert (X : forall T (f : peripheral_info -> T) l, List.concat (map (fun y => [f y]) l) = map f l)
        by (intros T f l; induction l as [|? ? IH]; cbn; congruence). rewrite X. clear X.
      apply (instances_map _ (fun i => peripheral_with i rs)) in I; [|intros; now apply peripheral_instance_with].
      rewrite <- (map_map (fun y => peripheral_with y rs) Single).
      destruct p as [i|i d]; cbn [mapped] in *.
      + cbn in I. rewrite I. exact E.
      + apply bind_ok in E as (k & Ek & E). injection E as <-. apply peripheral_instances in Ek.
        now rewrite (instances_fun _ (peripheral_instance_fun m) _ _ _ I Ek).
  Qed.
End Written.

(** ** The index *)
Definition nameable {A} (name : A -> string) (x : maybe_array A) : Prop := exists ns, entry_names name x = Ok ns.
Inductive listable : register_cluster -> Prop :=
  | ls_register r : nameable r_name r -> Forall (nameable f_name) (or_empty (r_fields (info r))) -> listable (RCRegister r)
  | ls_cluster (c : cluster) : nameable c_name c -> Forall listable (c_children (info c)) -> listable (RCCluster c).
Definition listable_p (p : peripheral) : Prop := nameable p_name p /\ Forall listable (or_empty (p_registers (info p))).

Lemma concat_each {A B} (f : A -> res (list B)) l out : concatM f l = Ok out -> forall a, In a l -> exists b, f a = Ok b.
Proof.
  intros H a I. apply concatM_ok in H as (ls & F & _). destruct (Forall2_in_l _ _ _ F _ I) as (b & _ & E). eauto.
Qed.
Lemma entry_last {A} (name : A -> string) x ns : entry_names name x = Ok ns -> In (name (info x)) ns.
Proof. unfold entry_names. intros H. apply bind_ok in H as (l & _ & H). injection H as <-. apply in_or_app. right. now left. Qed.
Lemma fields_list rg o : (exists b, concatM (add_field rg) (or_empty o) = Ok b) <-> Forall (nameable f_name) (or_empty o).
Proof.
  rewrite Forall_forall. split.
  - intros [b H] f I. destruct (concat_each _ _ _ H f I) as (k & K). unfold add_field in K. apply bind_ok in K as (ns & N & _). now exists ns.
  - intros H. apply concatM_exists. intros f I. destruct (H f I) as (ns & N). unfold add_field. rewrite N. cbn. eauto.
Qed.
Lemma register_list path r : (exists b, add_register path r = Ok b) <-> listable (RCRegister r).
Proof.
  unfold add_register. split.
  - intros [b H]. apply bind_ok in H as (ns & N & H). constructor; [now exists ns|]. destruct (concat_each _ _ _ H _ (entry_last _ _ _ N)) as (k & K).
    unfold register_at in K. apply bind_ok in K as (fs & F & _). apply (fields_list (new_register path (r_name (info r)))). exists fs.
    unfold r_fields_iter in F. destruct (r_fields (info r)); exact F.
  - intros H. inversion H as [? (ns & N) F|]; subst. rewrite N. cbn [bind]. apply concatM_exists. intros n _. unfold register_at.
    destruct (proj2 (fields_list (new_register path n) _) F) as (fs & Q). unfold r_fields_iter.
    destruct (r_fields (info r)) as [l|]; cbn [or_empty] in Q; cbn [opt_default concatM]; [rewrite Q|]; cbn; eauto.
Qed.
Lemma child_list rc : forall path, (exists b, add_rc path rc = Ok b) <-> listable rc.
Proof.
  induction rc as [r|c IH] using rc_tree_ind; intros path; [apply register_list|]. rewrite Forall_forall in IH. cbn [add_rc]. split.
  - intros [b H]. apply bind_ok in H as (ns & N & H). constructor; [now exists ns|]. destruct (concat_each _ _ _ H _ (entry_last _ _ _ N)) as (k & K).
    apply bind_ok in K as (rs & Rs & K). apply bind_ok in K as (cs & Cs & _). apply Forall_forall. intros x I.
    destruct x as [r'|c'].
    + destruct (concat_each _ _ _ Rs _ I) as (z & Z). apply (IH _ I (new_cluster path (c_name (info c)))). now exists z.
    + destruct (concat_each _ _ _ Cs _ I) as (z & Z). apply (IH _ I (new_cluster path (c_name (info c)))). now exists z.
  - intros H. inversion H as [|? (ns & N) F]; subst. rewrite Forall_forall in F. unfold cluster_info, cluster in *. rewrite N. cbn [bind].
    apply concatM_exists. intros n _.
    match goal with |- exists b, bind ?a _ = _ => assert (A : exists z, a = Ok z) end.
    { apply concatM_exists. intros [r'|c'] I; [|eauto]. exact (proj2 (IH _ I _) (F _ I)). }
    destruct A as (z & ->). cbn [bind].
    match goal with |- exists b, bind ?a _ = _ => assert (A : exists z, a = Ok z) end.
    { apply concatM_exists. intros [r'|c'] I; [eauto|]. exact (proj2 (IH _ I _) (F _ I)). }
    destruct A as (z' & ->). cbn [bind]. eauto.
Qed.
Lemma peripheral_list p : (exists b, add_peripheral p = Ok b) <-> listable_p p.
Proof.
  unfold add_peripheral, listable_p. replace (or_empty (p_registers (info p))) with (p_children (info p)) by (unfold p_children; now destruct (p_registers (info p))).
  rewrite Forall_forall. split.
  - intros [b H]. apply bind_ok in H as (ns & N & H). split; [now exists ns|]. destruct (concat_each _ _ _ H _ (entry_last _ _ _ N)) as (k & K).
    apply bind_ok in K as (rs & Rs & K). apply bind_ok in K as (cs & Cs & _). intros x I. destruct x as [r'|c'].
    + destruct (concat_each _ _ _ Rs r') as (z & Z); [apply in_rc_registers, I|]. apply (register_list (bp_new (p_name (info p)))). now exists z.
    + destruct (concat_each _ _ _ Cs c') as (z & Z); [apply in_rc_clusters, I|]. apply (child_list _ (bp_new (p_name (info p)))). now exists z.
  - intros [(ns & N) F]. rewrite N. cbn [bind]. apply concatM_exists. intros n _.
    match goal with |- exists b, bind ?a _ = _ => assert (A : exists z, a = Ok z) end.
    { apply concatM_exists. intros r' I. apply in_rc_registers in I. apply register_list. exact (F _ I). }
    destruct A as (z & ->). cbn [bind].
    match goal with |- exists b, bind ?a _ = _ => assert (A : exists z, a = Ok z) end.
    { apply concatM_exists. intros c' I. apply in_rc_clusters in I. apply child_list. exact (F _ I). }
    destruct A as (z' & ->). cbn [bind]. eauto.
Qed.
Lemma device_list d : (exists ix, index_create d = Ok ix) <-> Forall listable_p (d_peripherals d).
Proof.
  unfold index_create. rewrite Forall_forall. split.
  - intros [ix H] p I. apply peripheral_list. exact (concat_each _ _ _ H p I).
  - intros H. apply concatM_exists. intros p I. apply peripheral_list. exact (H p I).
Qed.

(** Writing out keeps the names. *)
Lemma nameable_single {A} (name : A -> string) i : nameable name (Single i).
Proof. unfold nameable, entry_names. cbn. eauto. Qed.
Lemma nameable_mapped {A} (name : A -> string) f x : (forall i, name (f i) = name i) -> nameable name x -> nameable name (mapped f x).
Proof. intros H. destruct x as [i|i d]; [intros _; apply nameable_single|]. unfold nameable, entry_names. cbn. now rewrite !H. Qed.
Lemma nameable_repeated {A} (name : A -> string) one x l y : repeated one x l -> nameable name x -> In y l -> nameable name y.
Proof. intros [->|(is & _ & ->)] N I; [destruct I as [<-|[]]; exact N|]. apply in_map_iff in I as (i & <- & _). apply nameable_single. Qed.
Lemma in_parts {A B} (R : A -> list B -> Prop) l ls y : Forall2 R l ls -> In y (List.concat ls) -> exists x k, In x l /\ R x k /\ In y k.
Proof. intros F I. apply in_concat in I as (k & K & I). destruct (Forall2_in_r _ _ _ F _ K) as (x & X & H). eauto. Qed.
Lemma fields_nameable m o o' : fields_written m o o' -> Forall (nameable f_name) (or_empty o) -> Forall (nameable f_name) (or_empty o').
Proof.
  destruct o as [fs|], o' as [fs'|]; cbn [fields_written or_empty]; try contradiction; [|constructor]. intros (ls & F & ->) H.
  rewrite Forall_forall in *. intros y I. destruct (in_parts _ _ _ _ F I) as (x & k & X & R & Y). exact (nameable_repeated _ _ _ _ _ R (H x X) Y).
Qed.
Lemma repeated_registers m r o l y : repeated (register_instance_of m) (mapped (fun i => register_with i o) r) l -> In y l -> r_fields (info y) = o.
Proof.
  intros [->|(is & I & ->)] Y; [destruct Y as [<-|[]]; now destruct r|]. apply in_map_iff in Y as (i & <- & Y).
  pose proof (instances_in _ _ _ _ I Y) as Q. destruct r as [j|j d]; cbn in Q; [now subst i|]. destruct Q as (n & x & Q). cbn in Q. decompose [and] Q. cbn. congruence.
Qed.
Lemma repeated_clusters m (c : cluster) kids l (y : cluster) : repeated (cluster_copy m) (mapped (fun i => cluster_with i kids) c) l -> In y l -> c_children (info y) = kids.
Proof.
  intros [->|(is & I & ->)] Y; [destruct Y as [<-|[]]; now destruct c|]. apply in_map_iff in Y as (i & <- & Y).
  pose proof (instances_in _ _ _ _ I Y) as Q. destruct c as [j|j d]; cbn in Q; [now subst i|]. destruct Q as (n & _ & Q & _). exact Q.
Qed.
Lemma repeated_peripherals m p o l y : repeated (peripheral_instance_of m) (mapped (fun i => peripheral_with i o) p) l -> In y l -> p_registers (info y) = o.
Proof.
  intros [->|(is & I & ->)] Y; [destruct Y as [<-|[]]; now destruct p|]. apply in_map_iff in Y as (i & <- & Y).
  pose proof (instances_in _ _ _ _ I Y) as Q. destruct p as [j|j d]; cbn in Q; [now subst i|]. destruct Q as (n & x & Q). cbn in Q. decompose [and] Q. cbn. congruence.
Qed.
Lemma child_listable m rc : forall l, child_written m rc l -> listable rc -> Forall listable l.
Proof.
  induction rc as [r|c IH] using rc_tree_ind; intros l W L; inversion W as [? o k F R|? ls k F R]; subst; inversion L as [? N Fs|? N Fs]; subst;
    apply Forall_map, Forall_forall; intros y Y.
  - constructor.
    + apply (nameable_repeated _ _ _ _ _ R); [|exact Y]. apply nameable_mapped; [reflexivity|exact N].
    + rewrite (repeated_registers _ _ _ _ _ R Y). exact (fields_nameable m _ _ F Fs).
  - constructor.
    + apply (nameable_repeated _ _ _ _ _ R); [|exact Y]. apply nameable_mapped; [reflexivity|exact N].
    + rewrite (repeated_clusters _ _ _ _ _ R Y). apply Forall_forall. intros z Z. destruct (in_parts _ _ _ _ F Z) as (x & k' & X & Wx & Z').
      rewrite Forall_forall in IH, Fs. pose proof (IH x X k' Wx (Fs x X)) as G. rewrite Forall_forall in G. exact (G z Z').
Qed.
Lemma peripheral_listable m p l : peripheral_written m p l -> listable_p p -> Forall listable_p l.
Proof.
  intros (o & W & R) [N L]. apply Forall_forall. intros y Y. split.
  - apply (nameable_repeated _ _ _ _ _ R); [|exact Y]. apply nameable_mapped; [reflexivity|exact N].
  - rewrite (repeated_peripherals _ _ _ _ _ R Y). destruct (p_registers (info p)) as [rs|], o as [rs'|]; try contradiction; [|constructor].
    destruct W as (ls & F & ->). cbn [or_empty] in *. apply Forall_forall. intros z Z. destruct (in_parts _ _ _ _ F Z) as (x & k' & X & Wx & Z').
    rewrite Forall_forall in L. pose proof (child_listable m x k' Wx (L x X)) as G. rewrite Forall_forall in G. exact (G z Z').
Qed.

Lemma same_set d d' ps : same_but_peripherals d d' -> d_set_peripherals d' ps = d_set_peripherals d ps.
Proof. destruct d, d'. unfold same_but_peripherals, d_set_peripherals. cbn. intros H. decompose [and] H. subst. reflexivity. Qed.
Lemma expand_written m fuel d d' e : underived d -> device_written m d d' -> expand m fuel d = Ok e -> expand m fuel d' = Ok e.
Proof.
  intros U (S & ls & F & P) E. unfold expand in E. apply bind_ok in E as (ix & I & E). apply bind_ok in E as (ps & Ps & E). injection E as <-.
  assert (L : Forall listable_p (d_peripherals d)) by (apply device_list; eauto).
  assert (L' : Forall listable_p (d_peripherals d')).
  { rewrite P. apply Forall_forall. intros z Z. destruct (in_parts _ _ _ _ F Z) as (x & k' & X & Wx & Z').
    rewrite Forall_forall in L. pose proof (peripheral_listable m x k' Wx (L x X)) as G. rewrite Forall_forall in G. exact (G z Z'). }
  apply device_list in L' as (ix' & I'). unfold expand. rewrite I'. cbn [bind].
  assert (G : concatM (expand_peripheral m ix' fuel) (d_peripherals d') = Ok ps).
  { rewrite P. eapply concat_parts; [exact F| |exact Ps]. intros a k o A Wa Ea. unfold underived in U. rewrite Forall_forall in U.
    exact (peripheral_repeated m ix ix' fuel a k o (U a A) Wa Ea). }
  rewrite G. cbn [bind]. f_equal. exact (same_set d d' ps S).
Qed.

(** ** All arrays can be written out *)
Section All.
  Variable m : mode.
  Variable ix : index.
  Lemma parts_exist {A B C} (f : A -> res (list C)) (R : A -> list B -> Prop) (P : B -> Prop) l out :
    (forall a o, In a l -> f a = Ok o -> exists k, R a k /\ Forall P k) -> concatM f l = Ok out ->
    exists ls, Forall2 R l ls /\ Forall P (List.concat ls).
  Proof using.
    revert out. induction l as [|a l IH]; intros out H E; cbn [concatM] in E; [exists []; split; constructor|].
    apply bind_ok in E as (o & Eo & E). apply bind_ok in E as (os & Eos & _). destruct (H a o (or_introl eq_refl) Eo) as (k & K1 & K2).
    destruct (IH os (fun a o I => H a o (or_intror I)) Eos) as (ls & L1 & L2). exists (k :: ls). split; [now constructor|]. apply Forall_app. now split.
  Qed.
  Lemma fields_all fuel rp o out : Forall underived_field (or_empty o) -> fields_done m ix fuel rp o = Ok out ->
    exists o', fields_written m o o' /\ Forall (fun f => is_single f = true) (or_empty o').
  Proof using.
    intros U E. destruct o as [fs|]; [|exists None; cbn; auto]. cbn in E. apply bind_ok in E as (l & L & _). cbn [or_empty] in U. rewrite Forall_forall in U.
    destruct (parts_exist (B := field) _ (repeated (field_instance_of m)) (fun f => is_single f = true) _ _ (fun f o I K =>
      ltac:(rewrite (field_plain m ix fuel rp f (U f I)) in K; destruct f as [i|i d];
        [exists [Single i]; split; [now left|now repeat constructor]|apply bind_ok in K as (k & K & _); exists (map Single k); split;
          [right; exists k; split; [exact (field_instances _ _ _ _ K)|reflexivity]|apply Forall_map, Forall_forall; reflexivity]])) L) as (ls & L1 & L2).
    exists (Some (List.concat ls)). split; [exists ls; now split|exact L2].
  Qed.
  Lemma child_all fuel : forall path rc out, underived_child rc -> expand_rc m ix fuel path rc = Ok out ->
    exists l, child_written m rc l /\ Forall child_single l.
  Proof using.
    induction fuel as [|fuel IH]; intros path rc out U E; [discriminate E|]. destruct U as [r D U|c D U]; cbn [expand_rc] in E.
    - rewrite (register_plain _ _ _ _ _ D) in E. apply bind_ok in E as (fs & Fs & E). destruct (fields_all _ _ _ _ U Fs) as (o & W & S).
      assert (K : exists is, instances_of (register_instance_of m) (mapped (fun i => register_with i o) r) is).
      { destruct r as [i|i d]; cbn [mapped] in *; [eexists; reflexivity|]. apply bind_ok in E as (k & Ek & _). apply register_instances in Ek.
        exists (map (fun y => register_with y o) k). apply (instances_map _ (fun i => register_with i o)) in Ek; [exact Ek|].
        intros; now apply register_instance_with. }
      destruct K as (is & K). exists (map RCRegister (map Single is)). assert (R : repeated (register_instance_of m) (mapped (fun i => register_with i o) r) (map Single is)).
      { right. eauto. }
      split; [exact (cw_register m r o _ W R)|]. rewrite map_map. apply Forall_map, Forall_forall. intros y Y. constructor.
      pose proof (repeated_registers m r o _ (Single y) R (in_map _ _ _ Y)) as G. cbn [info] in G. now rewrite G.
    - unfold cluster_info, cluster in *. rewrite D in E. cbn [bind fst snd opt_default] in E. apply bind_ok in E as (kids & Ek & E). rewrite Forall_forall in U.
      destruct (parts_exist (B := register_cluster) _ (child_written m) child_single _ _ (fun a o I K => IH _ a o (U a I) K) Ek) as (ls & L1 & L2).
      assert (K : exists is, instances_of (cluster_copy m) (mapped (fun i => cluster_with i (List.concat ls)) c) is).
      { destruct c as [i|i d]; cbn [mapped ma_map] in *; [eexists; reflexivity|]. apply concatM_split in E as (bs & Eb & _).
        change (cluster_expand m (c_with i kids (c_derived_from i)) d = Ok bs) in Eb. apply cluster_instances in Eb as [L I].
        exists (map (fun b => c_with b (List.concat ls) (c_derived_from i)) bs). split; [unfold len_N in *; now rewrite map_length|].
        intros k Hk. destruct (I k Hk) as (y & Y & (j & J)). exists (c_with y (List.concat ls) (c_derived_from i)).
        split; [unfold nth_N in *; now rewrite nth_error_map, Y|]. split; [exists j; exact J|]. split; reflexivity. }
      destruct K as (is & K). exists (map RCCluster (map Single is)).
      assert (R : repeated (cluster_copy m) (mapped (fun i => cluster_with i (List.concat ls)) c) (map Single is)) by (right; eauto).
      split; [exact (cw_cluster m c ls _ L1 R)|]. rewrite map_map. apply Forall_map, Forall_forall. intros y Y. constructor.
      pose proof (repeated_clusters m c _ _ (Single y) R (in_map _ _ _ Y)) as G. cbn [info] in G. now rewrite G.
  Qed.
  Lemma peripheral_all fuel p out : underived_peripheral p -> expand_peripheral m ix fuel p = Ok out ->
    exists l, peripheral_written m p l /\ Forall (fun p => is_single p = true /\ Forall child_single (or_empty (p_registers (info p)))) l.
  Proof using.
    intros [D U] E. rewrite (peripheral_plain _ _ _ _ D) in E. apply bind_ok in E as (rs & Rs & E).
    assert (W : exists o, match p_registers (info p), o with
              | None, None => True
              | Some rs, Some rs' => exists ls, Forall2 (child_written m) rs ls /\ rs' = List.concat ls
              | _, _ => False
              end /\ Forall child_single (or_empty o)).
    { destruct (p_registers (info p)) as [l0|]; [|exists None; cbn; auto]. cbn in Rs, U. apply bind_ok in Rs as (k & K & _). rewrite Forall_forall in U.
      destruct (parts_exist (B := register_cluster) _ (child_written m) child_single _ _ (fun a o I K => child_all _ _ a o (U a I) K) K) as (ls & L1 & L2).
      exists (Some (List.concat ls)). split; [exists ls; now split|exact L2]. }
    destruct W as (o & W & S).
    assert (K : exists is, instances_of (peripheral_instance_of m) (mapped (fun i => peripheral_with i o) p) is).
    { destruct p as [i|i d]; cbn [mapped] in *; [eexists; reflexivity|]. apply bind_ok in E as (k & Ek & _). apply peripheral_instances in Ek.
      exists (map (fun y => peripheral_with y o) k). apply (instances_map _ (fun i => peripheral_with i o)) in Ek; [exact Ek|].
      intros; now apply peripheral_instance_with. }
    destruct K as (is & K). exists (map Single is). assert (R : repeated (peripheral_instance_of m) (mapped (fun i => peripheral_with i o) p) (map Single is)).
    { right. eauto. }
    split; [exists o; now split|]. apply Forall_forall. intros y Y. pose proof (repeated_peripherals m p o _ y R Y) as G. rewrite G.
    apply in_map_iff in Y as (i & <- & _). now split.
  Qed.
End All.
Lemma all_written m fuel d e : underived d -> expand m fuel d = Ok e -> exists d', device_written m d d' /\ device_single d' /\ expand m fuel d' = Ok e.
Proof.
  intros U E. pose proof E as E0. unfold expand in E. apply bind_ok in E as (ix & I & E). apply bind_ok in E as (ps & Ps & _).
  unfold underived in U. pose proof (proj1 (Forall_forall _ _) U) as V.
  destruct (parts_exist (B := peripheral) _ (peripheral_written m) (fun p => is_single p = true /\ Forall child_single (or_empty (p_registers (info p)))) _ _
    (fun a o A K => peripheral_all m ix fuel a o (V a A) K) Ps) as (ls & L1 & L2).
  assert (W : device_written m d (d_set_peripherals d (List.concat ls))).
  { split; [unfold same_but_peripherals; destruct d; cbn; conjs; reflexivity|]. exists ls. split; [exact L1|reflexivity]. }
  exists (d_set_peripherals d (List.concat ls)). split; [exact W|]. split; [exact L2|]. exact (expand_written m fuel d _ e U W E0).
Qed.
