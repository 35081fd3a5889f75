(** Expansion in two steps: what is derived first, arrays and clusters then. *)
From Verif Require Import Base BaseFacts TreeFacts Types Derive DeriveProofs Arrays ArrayProofs IndexProofs InstanceProofs SpecArray SpecDerive SpecPath SpecExpand SpecFlat Expand PathProofs ExpandProofs PlaceProofs ChainProofs MeaningProofs ExactProofs SpecWritten WrittenProofs SpecComplete.

Section Complete.
  Variables (m : mode) (d : device) (ix : index).
  Hypothesis Hix : index_create d = Ok ix.

  Lemma values_done ctx e e' : values_expanded d ctx e e' -> evs_derived_from e' = None.
  Proof using. intros (chain & _ & _ & H & _). exact H. Qed.
  Lemma complete_field fuel rp f l : expand_field m ix fuel rp f = Ok l ->
    exists f', field_completed d (register_parts rp) f f' /\ underived_field f' /\ forall jx fuel' rp', expand_field m jx fuel' rp' f' = Ok l.
  Proof using Hix.
    unfold expand_field at 1. intros H. bnd H q Hq. bnd H evs Ev. destruct q as [f1 o]. cbn [fst snd] in *.
    assert (K : exists chain, follows_fields d (f_name (info f)) (register_parts rp) (f_derived_from (info f)) chain /\
      field_from f (paths chain) f1 /\
      origin (fun x => f_enumerated_values (info x) = []) f chain (register_parts rp ++ [f_name (info f)])
             (field_parts (opt_default (new_field rp (f_name (info f1))) o))).
    { destruct (f_derived_from (info f)) as [s|] eqn:E.
      - pose proof (derive_field_keeps _ _ _ _ _ _ _ Hq) as (_ & -> & _).
        apply (derive_field_chain d ix Hix) in Hq as (chain & F & G & R); [|destruct f; reflexivity].
        exists chain. assert (X : info (ma_map f_underive f) = f_underive (info f)) by (destruct f; reflexivity).
        rewrite X in F |- *. conjs; [exact F| |].
        + destruct f; exact G.
        + apply (returned_origin _ _ _ _ _ (new_field rp (f_name (info f)))) in R. destruct f; exact R.
      - injection Hq as <- <-. exists []. conjs; [constructor|now apply field_from_self|apply origin_none]. }
    destruct K as (chain & F & G & O).
    assert (V : Forall2 (values_expanded d (field_parts (opt_default (new_field rp (f_name (info f1))) o)))
                  (f_enumerated_values (info f1)) evs).
    { eapply mapM_forall2; [|exact Ev]. intros a b. now apply expand_enum_meaning. }
    exists (mapped (fun i => field_with i evs) f1).
    assert (U : underived_field (mapped (fun i => field_with i evs) f1)).
    { destruct G as (_ & _ & _ & D & _). split; [destruct f1; exact D|].
      replace (f_enumerated_values (info (mapped (fun i => field_with i evs) f1))) with evs by now destruct f1.
      apply Forall_forall. intros e I. destruct (Forall2_in_r _ _ _ V _ I) as (e0 & _ & E). exact (values_done _ _ _ E). }
    split; [exists chain, f1, (field_parts (opt_default (new_field rp (f_name (info f1))) o)), evs; auto|]. split; [exact U|].
    intros jx fuel' rp'. rewrite (field_plain _ _ _ _ _ U). destruct f1; exact H.
  Qed.
  Lemma parts_complete {A B C} (f : A -> res (list C)) (R : A -> B -> Prop) (P : B -> Prop) (Q : B -> list C -> Prop) l out :
    (forall a o, In a l -> f a = Ok o -> exists b, R a b /\ P b /\ Q b o) -> concatM f l = Ok out ->
    exists l' os, Forall2 R l l' /\ Forall P l' /\ Forall2 Q l' os /\ out = List.concat os.
  Proof using.
    revert out. induction l as [|a l IH]; intros out H E; cbn [concatM] in E; [injection E as <-; exists [], []; auto|].
    apply bind_ok in E as (o & Eo & E). apply bind_ok in E as (os & Eos & E). injection E as <-. destruct (H a o (or_introl eq_refl) Eo) as (b & B1 & B2 & B3).
    destruct (IH os (fun a o I => H a o (or_intror I)) Eos) as (l' & oss & L1 & L2 & L3 & ->). exists (b :: l'), (o :: oss). auto.
  Qed.
  Lemma complete_register fuel b r l : expand_register_array m ix fuel b r = Ok l ->
    exists r', register_completed d (block_parts b) r r' /\ underived_child (RCRegister r') /\
      forall jx fuel' b', expand_register_array m jx fuel' b' r' = Ok l.
  Proof using Hix.
    unfold expand_register_array at 1. intros H. bnd H q Hq. bnd H r2 E2. destruct q as [r1 o]. cbn [fst snd] in *.
    assert (K : exists chain, follows_registers d (r_name (info r)) (block_parts b) (r_derived_from (info r)) chain /\
      register_from r (paths chain) r1 /\
      origin (fun x => r_fields (info x) = None) r chain (block_parts b ++ [r_name (info r)])
             (register_parts (opt_default (new_register b (r_name (info r1))) o))).
    { destruct (r_derived_from (info r)) as [s|] eqn:E.
      - pose proof (derive_register_keeps _ _ _ _ _ _ _ Hq) as (_ & -> & _).
        apply (derive_register_chain d ix Hix) in Hq as (chain & F & G & R); [|destruct r; reflexivity].
        exists chain. assert (X : info (ma_map r_underive r) = r_underive (info r)) by (destruct r; reflexivity).
        rewrite X in F |- *. conjs; [exact F| |].
        + destruct r; exact G.
        + apply (returned_origin _ _ _ _ _ (new_register b (r_name (info r)))) in R. destruct r; exact R.
      - injection Hq as <- <-. exists []. conjs; [constructor|now apply register_from_self|apply origin_none]. }
    destruct K as (chain & F & G & O).
    set (rp := opt_default (new_register b (r_name (info r1))) o) in *.
    assert (V : exists fs out, match r_fields (info r1) with
      | None => fs = None
      | Some l => exists l', Forall2 (field_completed d (register_parts rp)) l l' /\ fs = Some l'
      end /\ Forall underived_field (or_empty fs) /\ (forall jx fuel' rp', fields_done m jx fuel' rp' fs = Ok out) /\
      r2 = mapped (fun i => register_with i out) r1).
    { destruct (r_fields (info r1)) as [fs|] eqn:Ef.
      - bnd E2 l1 E1. injection E2 as <-.
        apply (parts_complete _ (field_completed d (register_parts rp)) underived_field
          (fun f' o => forall jx fuel' rp', expand_field m jx fuel' rp' f' = Ok o)) in E1 as (fs' & os & C1 & C2 & C3 & ->).
        + exists (Some fs'), (Some (List.concat os)). split; [eauto|]. split; [exact C2|]. split; [|destruct r1; reflexivity].
          intros jx fuel' rp'. cbn. assert (Z : concatM (expand_field m jx fuel' rp') fs' = Ok (List.concat os)); [|now rewrite Z].
          apply concatM_ok. exists os. split; [|reflexivity]. clear -C3. induction C3; constructor; auto.
        + intros f cs _. apply complete_field.
      - injection E2 as <-. exists None, None. split; [reflexivity|]. split; [constructor|]. split; [reflexivity|].
        destruct r1 as [i|i e]; cbn [info mapped] in *; destruct i; cbn in Ef; subst; reflexivity. }
    destruct V as (fs & out & V & Uf & Df & ->). exists (mapped (fun i => register_with i fs) r1).
    assert (D : r_derived_from (info (mapped (fun i => register_with i fs) r1)) = None).
    { destruct G as (_ & _ & _ & _ & _ & _ & _ & D & _). destruct r1; exact D. }
    assert (Q : r_fields (info (mapped (fun i => register_with i fs) r1)) = fs) by now destruct r1.
    split; [exists chain, r1, (register_parts rp), fs; auto|]. split; [constructor; [exact D|now rewrite Q]|].
    intros jx fuel' b'. rewrite (register_plain _ _ _ _ _ D), Q, Df. cbn [bind]. destruct r1; exact H.
  Qed.
  Lemma complete_rc fuel : forall b rc l, expand_rc m ix fuel b rc = Ok l ->
    exists rc', child_completed d (block_parts b) rc rc' /\ underived_child rc' /\ forall jx b', expand_rc m jx fuel b' rc' = Ok l.
  Proof using Hix.
    induction fuel as [|k IH]; intros b rc l; cbn [expand_rc]; [discriminate|]. destruct rc as [r|c].
    - intros H. apply complete_register in H as (r' & C & U & E). exists (RCRegister r'). split; [now constructor|]. split; [exact U|]. intros. apply E.
    - intros H. bnd H q Hq. bnd H kids Ek. destruct q as [c1 o]. cbn [fst snd] in *.
      assert (K : exists chain, follows_clusters d (c_name (info c)) (block_parts b) (c_derived_from (info c)) chain /\
        cluster_from c (paths chain) c1 /\
        origin (fun x : cluster => c_children (info x) = []) c chain (block_parts b ++ [c_name (info c)])
               (block_parts (opt_default (new_cluster b (c_name (info c1))) o))).
      { destruct (c_derived_from (info c)) as [s|] eqn:E.
        - pose proof (derive_cluster_keeps _ _ _ _ _ _ _ Hq) as (_ & -> & _).
          apply (derive_cluster_chain d ix Hix) in Hq as (chain & F & G & R); [|destruct c; reflexivity].
          exists chain. conjs.
          + destruct c; exact F.
          + destruct c; exact G.
          + apply (returned_origin _ _ _ _ _ (new_cluster b (c_name (info c)))) in R. destruct c; exact R.
        - injection Hq as <- <-. exists []. conjs; [constructor|now apply cluster_from_self|apply origin_none]. }
      destruct K as (chain & F & G & O).
      set (cp := opt_default (new_cluster b (c_name (info c1))) o) in *.
      apply (parts_complete _ (child_completed d (block_parts cp)) underived_child
          (fun rc' o => forall jx b', expand_rc m jx k b' rc' = Ok o)) in Ek as (kids' & os & C1 & C2 & C3 & ->); [|intros rc cs _; apply IH].
      assert (D : c_derived_from (info c1) = None) by (destruct G as (_ & _ & _ & _ & _ & D & _); exact D).
      exists (RCCluster (mapped (fun i => cluster_with i kids') c1)). split; [eapply cc_cluster; eauto|].
      split; [constructor; destruct c1; assumption|]. intros jx b'. cbn [expand_rc].
      assert (Z : forall b', concatM (expand_rc m jx k b') kids' = Ok (List.concat os)).
      { intros b0. apply concatM_ok. exists os. split; [|reflexivity]. clear -C3. induction C3; constructor; auto. }
      destruct c1 as [i|i e]; cbn [info] in D; cbn [mapped info cluster_with c_derived_from]; rewrite D;
        cbn [bind fst snd opt_default info c_children]; rewrite Z; exact H.
  Qed.
  Lemma complete_peripheral fuel p l : expand_peripheral m ix fuel p = Ok l ->
    exists p', peripheral_completed d p p' /\ underived_peripheral p' /\ forall jx, expand_peripheral m jx fuel p' = Ok l.
  Proof using Hix.
    unfold expand_peripheral at 1. intros H. bnd H q Hq. bnd H r2 E2. destruct q as [r1 o]. cbn [fst snd] in *.
    assert (K : exists chain, follows_peripherals d (p_name (info p)) [] (p_derived_from (info p)) chain /\
      peripheral_from p (paths chain) r1 /\
      origin (fun x => p_registers (info x) = None) p chain [p_name (info p)]
             (block_parts (opt_default (bp_new (p_name (info r1))) o))).
    { destruct (p_derived_from (info p)) as [s|] eqn:E.
      - pose proof (derive_peripheral_keeps _ _ _ _ _ _ Hq) as (_ & ->).
        apply (derive_peripheral_chain d ix Hix) in Hq as (chain & Hq); [|destruct p; reflexivity].
        destruct (Hq []) as (F & G & R).
        exists chain. conjs.
        + destruct p; exact F.
        + destruct p; exact G.
        + apply (returned_origin _ _ _ _ _ (bp_new (p_name (info p)))) in R. destruct p; exact R.
      - injection Hq as <- <-. exists []. conjs; [constructor|now apply peripheral_from_self|apply origin_none]. }
    destruct K as (chain & F & G & O).
    set (rp := opt_default (bp_new (p_name (info r1))) o) in *.
    assert (V : exists fs out, match p_registers (info r1) with
      | None => fs = None
      | Some l => exists l', Forall2 (child_completed d (block_parts rp)) l l' /\ fs = Some l'
      end /\ Forall underived_child (or_empty fs) /\ (forall jx b', children_done m jx fuel b' fs = Ok out) /\
      r2 = mapped (fun i => peripheral_with i out) r1).
    { destruct (p_registers (info r1)) as [fs|] eqn:Ef.
      - bnd E2 l1 E1. injection E2 as <-.
        apply (parts_complete _ (child_completed d (block_parts rp)) underived_child
          (fun rc' o => forall jx b', expand_rc m jx fuel b' rc' = Ok o)) in E1 as (fs' & os & C1 & C2 & C3 & ->).
        + exists (Some fs'), (Some (List.concat os)). split; [eauto|]. split; [exact C2|]. split; [|destruct r1; reflexivity].
          intros jx b'. cbn. assert (Z : concatM (expand_rc m jx fuel b') fs' = Ok (List.concat os)); [|now rewrite Z].
          apply concatM_ok. exists os. split; [|reflexivity]. clear -C3. induction C3; constructor; auto.
        + intros f cs _. apply complete_rc.
      - injection E2 as <-. exists None, None. split; [reflexivity|]. split; [constructor|]. split; [reflexivity|].
        destruct r1 as [i|i e]; cbn [info mapped] in *; destruct i; cbn in Ef; subst; reflexivity. }
    destruct V as (fs & out & V & Uf & Df & ->). exists (mapped (fun i => peripheral_with i fs) r1).
    assert (D : p_derived_from (info (mapped (fun i => peripheral_with i fs) r1)) = None).
    { destruct G as (_ & _ & _ & _ & _ & D & _). destruct r1; exact D. }
    assert (Q : p_registers (info (mapped (fun i => peripheral_with i fs) r1)) = fs) by now destruct r1.
    split; [exists chain, r1, (block_parts rp), fs; auto|]. split; [split; [exact D|now rewrite Q]|].
    intros jx. rewrite (peripheral_plain _ _ _ _ D), Q, Df. cbn [bind]. destruct r1; exact H.
  Qed.
End Complete.

(** What expands has names. *)
Lemma field_nameable m jx fuel rp f l : underived_field f -> expand_field m jx fuel rp f = Ok l -> nameable f_name f.
Proof.
  intros U E. rewrite (field_plain _ _ _ _ _ U) in E. destruct f as [i|i d]; [apply nameable_single|]. apply bind_ok in E as (k & K & _).
  apply field_instances in K as [_ K]. unfold nameable, entry_names. destruct (proj2 (names_total d (f_name i))) as (ns & N); [|rewrite N; cbn; eauto].
  intros n Hn. destruct (K n Hn) as (y & _ & idx & H & _). eauto.
Qed.
Lemma child_expandable m jx fuel : forall b rc l, underived_child rc -> expand_rc m jx fuel b rc = Ok l -> listable rc.
Proof.
  induction fuel as [|k IH]; intros b rc l U E; [discriminate E|]. destruct U as [r D U|c D U]; cbn [expand_rc] in E; rewrite Forall_forall in U.
  - rewrite (register_plain _ _ _ _ _ D) in E. apply bind_ok in E as (fs & Fs & E). constructor.
    + destruct r as [i|i d]; [apply nameable_single|]. cbn [mapped] in E. apply bind_ok in E as (q & K & _). apply register_instances in K as [_ K].
      unfold nameable, entry_names. destruct (proj2 (names_total d (r_name i))) as (ns & N); [|cbn [info]; rewrite N; cbn; eauto].
      intros n Hn. destruct (K n Hn) as (y & _ & idx & H & _). eauto.
    + apply Forall_forall. intros f I. unfold fields_done in Fs. destruct (r_fields (info r)) as [l0|]; [|destruct I]. cbn [or_empty] in *.
      apply bind_ok in Fs as (z & Z & _). destruct (concat_each _ _ _ Z f I) as (o & Eo). exact (field_nameable _ _ _ _ _ _ (U f I) Eo).
  - unfold cluster_info, cluster in *. rewrite D in E. cbn [bind fst snd opt_default] in E. apply bind_ok in E as (kids & Ek & E). constructor.
    + destruct c as [i|i d]; [apply nameable_single|]. cbn [ma_map] in E. apply concatM_split in E as (bs & Eb & _).
      change (cluster_expand m (c_with i kids (c_derived_from i)) d = Ok bs) in Eb. apply cluster_instances in Eb as [_ K].
      unfold nameable, entry_names. destruct (proj2 (names_total d (c_name i))) as (ns & N); [|cbn [info]; rewrite N; cbn; eauto].
      intros n Hn. destruct (K n Hn) as (y & _ & idx & H & _). eauto.
    + apply Forall_forall. intros x I. destruct (concat_each _ _ _ Ek x I) as (o & Eo). exact (IH _ x o (U x I) Eo).
Qed.
Lemma peripheral_expandable m jx fuel p l : underived_peripheral p -> expand_peripheral m jx fuel p = Ok l -> listable_p p.
Proof.
  intros [D U] E. rewrite (peripheral_plain _ _ _ _ D) in E. apply bind_ok in E as (rs & Rs & E). rewrite Forall_forall in U. split.
  - destruct p as [i|i d]; [apply nameable_single|]. cbn [mapped] in E. apply bind_ok in E as (q & K & _). apply peripheral_instances in K as [_ K].
    unfold nameable, entry_names. destruct (proj2 (names_total d (p_name i))) as (ns & N); [|cbn [info]; rewrite N; cbn; eauto].
    intros n Hn. destruct (K n Hn) as (y & _ & idx & H & _). eauto.
  - apply Forall_forall. intros x I. unfold children_done in Rs. destruct (p_registers (info p)) as [l0|]; [|destruct I]. cbn [or_empty] in *.
    apply bind_ok in Rs as (z & Z & _). destruct (concat_each _ _ _ Z x I) as (o & Eo). exact (child_expandable _ _ _ _ _ _ (U x I) Eo).
Qed.

Lemma expand_complete m fuel d e : expand m fuel d = Ok e ->
  exists d', device_completed d d' /\ underived d' /\ expand m fuel d' = Ok e.
Proof.
  unfold expand at 1. intros E. apply bind_ok in E as (ix & Hix & E). apply bind_ok in E as (ps & Ps & E). injection E as <-.
  apply (parts_complete _ (peripheral_completed d) underived_peripheral (fun p' o => forall jx, expand_peripheral m jx fuel p' = Ok o)) in Ps
    as (ps' & os & C1 & C2 & C3 & ->); [|intros p o _; now apply complete_peripheral].
  assert (L : Forall listable_p (d_peripherals (d_set_peripherals d ps'))).
  { cbn. apply Forall_forall. intros p I. rewrite Forall_forall in C2. destruct (Forall2_in_l _ _ _ C3 _ I) as (o & _ & Eo).
    exact (peripheral_expandable m [] fuel p o (C2 p I) (Eo [])). }
  apply device_list in L as (ix' & I'). exists (d_set_peripherals d ps').
  split; [split; [unfold same_but_peripherals; destruct d; cbn; conjs; reflexivity|exact C1]|]. split; [exact C2|].
  unfold expand. rewrite I'. cbn [bind]. assert (Z : concatM (expand_peripheral m ix' fuel) ps' = Ok (List.concat os)).
  { apply concatM_ok. exists os. split; [|reflexivity]. clear -C3. induction C3; constructor; auto. }
  cbn [d_peripherals d_set_peripherals]. rewrite Z. reflexivity.
Qed.
