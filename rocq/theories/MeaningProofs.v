From Verif Require Import BaseFacts Types TreeFacts BuilderProofs Derive DeriveProofs Arrays ArrayProofs IndexProofs InstanceProofs SpecArray SpecDerive SpecPath SpecExpand Expand PathProofs ExpandProofs PlaceProofs ChainProofs.

(** ** Instances *)
Lemma instances_meaning {A} (one : A -> dim_element -> N -> A -> Prop) bound m (i : A) d base mk l :
  bound <> 0 ->
  (forall k idx off, index_text d k idx -> sum_is m bound (base + k * de_increment d) off -> one i d k (mk idx off)) ->
  instances bound d base mk m = Ok l -> instances_of one (Array i d) l.
Proof.
  intros B H E. apply instances_spec in E as [L E]; [|exact B]. split; [exact L|]. intros k Hk.
  destruct (E k Hk) as (idx & off & H1 & H2 & H3 & H4). exists (mk idx off). split; [exact H4|].
  apply H; [exact H1|]. split; [exact H2|exact H3].
Qed.
Lemma template_text_subst idx t : template_text idx t (option_map (subst_index idx) t).
Proof. destruct t; cbn; [|reflexivity]. eexists. split; [reflexivity|]. apply subst_filled. Qed.
Lemma field_instances m i d l : field_expand m i d = Ok l -> instances_of (field_instance_of m) (Array i d) l.
Proof.
  rewrite field_expand_instances. apply instances_meaning; [discriminate|]. intros k idx off Hi Ho.
  exists idx. cbn [field_mk f_name f_description f_bit_range f_access f_mwv f_write_constraint f_read_action
                   f_enumerated_values f_derived_from br_from_offset_width br_offset br_width br_type].
  conjs; first [exact Hi | exact Ho | reflexivity | apply instance_name_spec | apply instance_description_spec].
Qed.
Lemma register_instances m i d l : register_expand m i d = Ok l -> instances_of (register_instance_of m) (Array i d) l.
Proof.
  rewrite register_expand_instances. apply instances_meaning; [discriminate|]. intros k idx off Hi Ho.
  exists idx. cbn.
  conjs; first [exact Hi | exact Ho | reflexivity | apply instance_name_spec | apply instance_description_spec
               | apply template_text_subst].
Qed.
Lemma cluster_instances m i d l : cluster_expand m i d = Ok l -> instances_of (cluster_instance_of m) (Array i d) l.
Proof.
  rewrite cluster_expand_instances. apply instances_meaning; [discriminate|]. intros k idx off Hi Ho.
  exists idx. cbn. conjs; first [exact Hi | exact Ho | reflexivity | apply instance_name_spec].
Qed.
Lemma peripheral_instances m i d l : peripheral_expand m i d = Ok l -> instances_of (peripheral_instance_of m) (Array i d) l.
Proof.
  rewrite peripheral_expand_instances. apply instances_meaning; [discriminate|]. intros k idx off Hi Ho.
  exists idx. cbn.
  conjs; first [exact Hi | exact Ho | reflexivity | apply instance_name_spec | apply instance_description_spec
               | apply template_text_subst].
Qed.

Lemma concatM_split {A B C} (f : A -> res B) (g : B -> res (list C)) l out :
  concatM (fun a => let* b := f a in g b) l = Ok out -> exists bs, mapM f l = Ok bs /\ concatM g bs = Ok out.
Proof.
  revert out; induction l as [|a l IH]; intros out; cbn [concatM mapM].
  - intros [= <-]. exists []. auto.
  - intros H. bnd H c Ec. bnd H cs Ecs. injection H as <-. bnd Ec b Eb. destruct (IH _ Ecs) as (bs & E1 & E2).
    exists (b :: bs). rewrite Eb, E1. cbn [bind concatM]. rewrite Ec, E2. auto.
Qed.
(** A loop whose results are all images of lists. *)
Lemma concatM_image {A B C} (h : B -> C) (R : A -> list B -> Prop) (f : A -> res (list C)) l out :
  (forall a cs, In a l -> f a = Ok cs -> exists bs, cs = map h bs /\ R a bs) ->
  concatM f l = Ok out -> exists groups, out = map h (List.concat groups) /\ Forall2 R l groups.
Proof.
  revert out; induction l as [|a l IH]; intros out H; cbn [concatM].
  - intros [= <-]. exists []. auto.
  - intros E. bnd E c Ec. bnd E cs Ecs. injection E as <-.
    destruct (H a c (or_introl eq_refl) Ec) as (bs & -> & Ra).
    destruct (IH cs (fun a' c' I => H a' c' (or_intror I)) Ecs) as (gs & -> & Rs).
    exists (bs :: gs). split; [cbn; now rewrite map_app|]. constructor; assumption.
Qed.
Lemma mapM_forall2 {A B} (R : A -> B -> Prop) (f : A -> res B) l l' :
  (forall a b, f a = Ok b -> R a b) -> mapM f l = Ok l' -> Forall2 R l l'.
Proof.
  intros H E. apply mapM_ok in E. induction E; constructor; auto.
Qed.

Notation plain := (fun i => RCRegister (Single i)).
Section Meaning.
  Variables (m : mode) (d : device) (ix : index).
  Hypothesis Hix : index_create d = Ok ix.

  Lemma expand_enum_meaning fuel fp e e' : expand_enum ix fuel fp e = Ok e' ->
    values_expanded d (field_parts fp) e e'.
  Proof.
    unfold expand_enum, values_expanded. destruct (evs_derived_from e) as [s|] eqn:E.
    - intros H. bnd H q Hq. destruct q as [e1 o]. injection H as <-.
      apply (derive_enum_chain d ix Hix) in Hq as (chain & F & G); [|reflexivity].
      exists chain. split; [exact F|]. destruct G as (G1 & G2 & G3 & G4). repeat split; assumption.
    - intros [= <-]. exists []. split; [constructor|]. apply values_from_self. exact E.
  Qed.
  Lemma expand_field_meaning fuel rp f l : expand_field m ix fuel rp f = Ok l ->
    exists out, l = map Single out /\ field_expanded m d (register_parts rp) f out.
  Proof.
    unfold expand_field. intros H. bnd H q Hq. bnd H evs Ev. destruct q as [f1 o]. cbn [fst snd] in *.
    assert (K : exists chain, follows_fields d (f_name (info f)) (register_parts rp) (f_derived_from (info f)) chain /\
      field_from f (paths chain) f1 /\
      origin (fun x => f_enumerated_values (info x) = []) f chain (register_parts rp ++ [f_name (info f)])
             (field_parts (opt_default (new_field rp (f_name (info f1))) o))).
    { destruct (f_derived_from (info f)) as [s|] eqn:E.
      - pose proof (derive_field_keeps _ _ _ _ _ _ _ Hq) as (_ & -> & _).
        apply (derive_field_chain d ix Hix) in Hq as (chain & F & G & R); [|destruct f; reflexivity].
        exists chain. assert (X : info (ma_map f_underive f) = f_underive (info f)) by (destruct f; reflexivity).
        rewrite X in F |- *. conjs; [exact F| |].
        + destruct f; exact G.
        + apply (returned_origin _ _ _ _ _ (new_field rp (f_name (info f)))) in R. destruct f; exact R.
      - injection Hq as <- <-. exists []. conjs; [constructor|now apply field_from_self|apply origin_none]. }
    destruct K as (chain & F & G & O).
    assert (V : Forall2 (values_expanded d (field_parts (opt_default (new_field rp (f_name (info f1))) o)))
                  (f_enumerated_values (info f1)) evs).
    { eapply mapM_forall2; [|exact Ev]. intros a b. apply expand_enum_meaning. }
    assert (I : exists out, l = map Single out /\
              instances_of (field_instance_of m) (mapped (fun i => field_with i evs) f1) out).
    { destruct f1 as [i|i e]; cbn [ma_map mapped] in *.
      - injection H as <-. eexists [_]. split; [reflexivity|]. reflexivity.
      - bnd H out Eo. injection H as <-. exists out. split; [reflexivity|]. apply field_instances. exact Eo. }
    destruct I as (out & -> & I). exists out. split; [reflexivity|].
    exists chain, f1, (field_parts (opt_default (new_field rp (f_name (info f1))) o)), evs. auto.
  Qed.
  Lemma expand_register_meaning fuel b r l : expand_register_array m ix fuel b r = Ok l ->
    exists out, l = map plain out /\ register_expanded m d (block_parts b) r out.
  Proof.
    unfold expand_register_array. intros H. bnd H q Hq. bnd H r2 E2. destruct q as [r1 o]. cbn [fst snd] in *.
    assert (K : exists chain, follows_registers d (r_name (info r)) (block_parts b) (r_derived_from (info r)) chain /\
      register_from r (paths chain) r1 /\
      origin (fun x => r_fields (info x) = None) r chain (block_parts b ++ [r_name (info r)])
             (register_parts (opt_default (new_register b (r_name (info r1))) o))).
    { destruct (r_derived_from (info r)) as [s|] eqn:E.
      - pose proof (derive_register_keeps _ _ _ _ _ _ _ Hq) as (_ & -> & _).
        apply (derive_register_chain d ix Hix) in Hq as (chain & F & G & R); [|destruct r; reflexivity].
        exists chain. assert (X : info (ma_map r_underive r) = r_underive (info r)) by (destruct r; reflexivity).
        rewrite X in F |- *. conjs; [exact F| |].
        + destruct r; exact G.
        + apply (returned_origin _ _ _ _ _ (new_register b (r_name (info r)))) in R. destruct r; exact R.
      - injection Hq as <- <-. exists []. conjs; [constructor|now apply register_from_self|apply origin_none]. }
    destruct K as (chain & F & G & O).
    set (rp := opt_default (new_register b (r_name (info r1))) o) in *.
    assert (V : exists fs, match r_fields (info r1) with
      | None => fs = None
      | Some l => exists groups, Forall2 (field_expanded m d (register_parts rp)) l groups /\
                    fs = Some (map Single (List.concat groups))
      end /\ r2 = mapped (fun i => register_with i fs) r1).
    { destruct (r_fields (info r1)) as [fs|] eqn:Ef.
      - bnd E2 l1 E1. injection E2 as <-.
        apply (concatM_image Single (field_expanded m d (register_parts rp))) in E1 as (groups & -> & Fg).
        + eexists. split; [eauto|]. destruct r1; reflexivity.
        + intros f cs _. apply expand_field_meaning.
      - injection E2 as <-. exists None. split; [reflexivity|].
        destruct r1 as [i|i e]; cbn [info mapped] in *; destruct i; cbn in Ef; subst; reflexivity. }
    destruct V as (fs & V & ->).
    assert (I : exists out, l = map plain out /\
              instances_of (register_instance_of m) (mapped (fun i => register_with i fs) r1) out).
    { destruct r1 as [i|i e]; cbn [ma_map mapped] in *.
      - injection H as <-. eexists [_]. split; [reflexivity|]. reflexivity.
      - bnd H out Eo. injection H as <-. exists out. split; [reflexivity|]. apply register_instances. exact Eo. }
    destruct I as (out & -> & I). exists out. split; [reflexivity|].
    exists chain, r1, (register_parts rp), fs. auto.
  Qed.
  Lemma expand_cluster_meaning c kids l : c_children c = map plain kids -> expand_cluster m c = Ok l ->
    exists out, l = map plain out /\ Forall2 (hoisted m (c_name c) (c_address_offset c)) kids out.
  Proof.
    unfold expand_cluster. intros -> H. revert l H. induction kids as [|k kids IH]; intros l; cbn [map mapM].
    - intros [= <-]. exists []. auto.
    - intros H. bnd H x Ex. bnd H xs Exs. injection H as <-. bnd Ex off Eo. injection Ex as <-.
      destruct (IH _ Exs) as (out & -> & F). eexists (_ :: out). split; [reflexivity|]. constructor; [|exact F].
      cbn [info] in Eo. unfold hoisted, r_move, r_with. cbn.
      conjs; try reflexivity. split.
      + unfold add32 in Eo. now apply add_w_mod in Eo.
      + intros ->. unfold add32 in Eo. apply add_w_debug in Eo. apply Eo.
  Qed.
  Lemma expand_rc_meaning fuel : forall b rc l, expand_rc m ix fuel b rc = Ok l ->
    exists out, l = map plain out /\ child_expanded m d (block_parts b) rc out.
  Proof.
    induction fuel as [|k IH]; intros b rc l; cbn [expand_rc]; [discriminate|]. destruct rc as [r|c].
    - intros H. apply expand_register_meaning in H as (out & -> & R). exists out. split; [reflexivity|].
      now constructor.
    - intros H. bnd H q Hq. bnd H kids Ek. destruct q as [c1 o]. cbn [fst snd] in *.
      assert (K : exists chain, follows_clusters d (c_name (info c)) (block_parts b) (c_derived_from (info c)) chain /\
        cluster_from c (paths chain) c1 /\
        origin (fun x : cluster => c_children (info x) = []) c chain (block_parts b ++ [c_name (info c)])
               (block_parts (opt_default (new_cluster b (c_name (info c1))) o))).
      { destruct (c_derived_from (info c)) as [s|] eqn:E.
        - pose proof (derive_cluster_keeps _ _ _ _ _ _ _ Hq) as (_ & -> & _).
          apply (derive_cluster_chain d ix Hix) in Hq as (chain & F & G & R); [|destruct c; reflexivity].
          exists chain. conjs.
          + destruct c; exact F.
          + destruct c; exact G.
          + apply (returned_origin _ _ _ _ _ (new_cluster b (c_name (info c)))) in R. destruct c; exact R.
        - injection Hq as <- <-. exists []. conjs; [constructor|now apply cluster_from_self|apply origin_none]. }
      destruct K as (chain & F & G & O).
      set (cp := opt_default (new_cluster b (c_name (info c1))) o) in *.
      apply (concatM_image plain (child_expanded m d (block_parts cp))) in Ek as (groups & -> & Fg);
        [|intros rc cs _; apply IH].
      assert (I : exists cs outs, l = map plain (List.concat outs) /\
                instances_of (cluster_instance_of m) c1 cs /\
                Forall2 (fun k out => Forall2 (hoisted m (c_name k) (c_address_offset k)) (List.concat groups) out) cs outs).
      { destruct c1 as [i|i e]; cbn [ma_map] in *.
        - eapply expand_cluster_meaning in H as (out & -> & Ho); [|reflexivity].
          exists [i], [out]. cbn [List.concat app]. rewrite app_nil_r. conjs; [reflexivity|reflexivity|]. auto.
        - apply concatM_split in H as (cs & Ec & Eo).
          apply (concatM_image plain (fun k out => Forall2 (hoisted m (c_name k) (c_address_offset k)) (List.concat groups) out)) in Eo as (outs & -> & Fo).
          + exists cs, outs. conjs; [reflexivity| |exact Fo]. apply cluster_instances in Ec. exact Ec.
          + intros x cs' Ix Ex. eapply expand_cluster_meaning; [|exact Ex].
            apply mapM_ok in Ec. destruct (Forall2_in_r _ _ _ Ec _ Ix) as (n & _ & En).
            unfold cluster_instance in En. bnd En idx E3. bnd En off E4. injection En as <-. reflexivity. }
      destruct I as (cs & outs & -> & I & Fo). exists (List.concat outs). split; [reflexivity|].
      eapply ce_cluster; eauto.
  Qed.
  Lemma expand_peripheral_meaning fuel p l : expand_peripheral m ix fuel p = Ok l ->
    exists out, l = map Single out /\ peripheral_expanded m d p out.
  Proof.
    unfold expand_peripheral. intros H. bnd H q Hq. bnd H r2 E2. destruct q as [r1 o]. cbn [fst snd] in *.
    assert (K : exists chain, follows_peripherals d (p_name (info p)) [] (p_derived_from (info p)) chain /\
      peripheral_from p (paths chain) r1 /\
      origin (fun x => p_registers (info x) = None) p chain [p_name (info p)]
             (block_parts (opt_default (bp_new (p_name (info r1))) o))).
    { destruct (p_derived_from (info p)) as [s|] eqn:E.
      - pose proof (derive_peripheral_keeps _ _ _ _ _ _ Hq) as (_ & ->).
        apply (derive_peripheral_chain d ix Hix) in Hq as (chain & Hq); [|destruct p; reflexivity].
        destruct (Hq []) as (F & G & R).
        exists chain. conjs.
        + destruct p; exact F.
        + destruct p; exact G.
        + apply (returned_origin _ _ _ _ _ (bp_new (p_name (info p)))) in R. destruct p; exact R.
      - injection Hq as <- <-. exists []. conjs; [constructor|now apply peripheral_from_self|apply origin_none]. }
    destruct K as (chain & F & G & O).
    set (rp := opt_default (bp_new (p_name (info r1))) o) in *.
    assert (V : exists fs, match p_registers (info r1) with
      | None => fs = None
      | Some l => exists groups, Forall2 (child_expanded m d (block_parts rp)) l groups /\
                    fs = Some (map plain (List.concat groups))
      end /\ r2 = mapped (fun i => peripheral_with i fs) r1).
    { destruct (p_registers (info r1)) as [fs|] eqn:Ef.
      - bnd E2 l1 E1. injection E2 as <-.
        apply (concatM_image plain (child_expanded m d (block_parts rp))) in E1 as (groups & -> & Fg).
        + eexists. split; [eauto|]. destruct r1; reflexivity.
        + intros f cs _. apply expand_rc_meaning.
      - injection E2 as <-. exists None. split; [reflexivity|].
        destruct r1 as [i|i e]; cbn [info mapped] in *; destruct i; cbn in Ef; subst; reflexivity. }
    destruct V as (fs & V & ->).
    assert (I : exists out, l = map Single out /\
              instances_of (peripheral_instance_of m) (mapped (fun i => peripheral_with i fs) r1) out).
    { destruct r1 as [i|i e]; cbn [ma_map mapped] in *.
      - injection H as <-. eexists [_]. split; [reflexivity|]. reflexivity.
      - bnd H out Eo. injection H as <-. exists out. split; [reflexivity|]. apply peripheral_instances. exact Eo. }
    destruct I as (out & -> & I). exists out. split; [reflexivity|].
    exists chain, r1, (block_parts rp), fs. auto.
  Qed.
End Meaning.
Lemma expand_meaning m fuel d d' : expand m fuel d = Ok d' -> device_expanded m d d'.
Proof.
  unfold expand. intros H. bnd H ix Ei. bnd H ps Ep. injection H as <-. split.
  - unfold same_but_peripherals. cbn. repeat (split; [reflexivity|]). reflexivity.
  - apply (concatM_image Single (peripheral_expanded m d)) in Ep as (groups & -> & F).
    + exists groups. split; [exact F|reflexivity].
    + intros p cs _. apply expand_peripheral_meaning. exact Ei.
Qed.
