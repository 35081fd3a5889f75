(** Arrays written out: if what is written out expands, so does what it is written out from. *)
From Verif Require Import Base BaseFacts TreeFacts Types Arrays InstanceProofs Expand SpecArray SpecExpand SpecFlat SpecWritten ExpandProofs MeaningProofs ExactProofs ExactReach WrittenProofs.

Lemma first_instance {A} (one : A -> dim_element -> N -> A -> Prop) x f is : instances_of one (mapped f x) is -> some_there x -> exists y, In y is.
Proof.
  destruct x as [i|i d]; cbn [mapped instances_of some_there]; [intros -> _; exists (f i); now left|]. intros [L _] H.
  destruct is as [|y is]; [cbn in L; congruence|exists y; now left].
Qed.
Lemma concat_back {A B C} (f : A -> res (list C)) (g : B -> res (list C)) (R : A -> list B -> Prop) l ls out :
  Forall2 R l ls -> (forall a k o, In a l -> R a k -> concatM g k = Ok o -> exists o', f a = Ok o') -> concatM g (List.concat ls) = Ok out ->
  exists out', concatM f l = Ok out'.
Proof.
  intros F H E. apply concatM_exists. revert out H E. induction F as [|a k l ls Ra F IH]; intros out H E b I; [destruct I|].
  cbn [List.concat] in E. rewrite concatM_app in E. apply bind_ok in E as (o & Eo & E). apply bind_ok in E as (os & Eos & _).
  destruct I as [<-|I]; [exact (H a k o (or_introl eq_refl) Ra Eo)|]. exact (IH os (fun a k o I => H a k o (or_intror I)) Eos b I).
Qed.

Section Back.
  Variable m : mode.
  Variables ix ix' : index.
  Lemma field_back fuel rp f l out fuel' rp' : underived_field f -> repeated (field_instance_of m) f l ->
    concatM (expand_field m ix' fuel' rp') l = Ok out -> exists out', expand_field m ix fuel rp f = Ok out'.
  Proof.
    intros U R E. rewrite (field_plain _ _ _ _ _ U). destruct f as [i|i d]; [eauto|]. destruct R as [->|(is & I & _)].
    - rewrite concat_one, (field_plain _ _ _ _ _ U) in E. eauto.
    - rewrite (field_reached _ _ _ _ I). cbn. eauto.
  Qed.
  Lemma fields_back fuel rp o o' out fuel' rp' : Forall underived_field (or_empty o) -> fields_written m o o' ->
    fields_done m ix' fuel' rp' o' = Ok out -> fields_done m ix fuel rp o = Ok out.
  Proof.
    intros U W E. assert (K : exists out', fields_done m ix fuel rp o = Ok out').
    { destruct o as [fs|], o' as [fs'|]; cbn in W; try contradiction; cbn in *; [|eauto]. destruct W as (ls & F & ->).
      apply bind_ok in E as (l & L & _). rewrite Forall_forall in U.
      destruct (concat_back (expand_field m ix fuel rp) _ _ _ _ _ F (fun a k o I R K => field_back fuel rp a k o fuel' rp' (U a I) R K) L) as (z & Z).
      rewrite Z. cbn. eauto. }
    destruct K as (out' & K). rewrite K. rewrite (fields_repeated m ix ix' fuel rp rp' fuel' o o' out' U W K) in E. exact E.
  Qed.
  Lemma register_back fuel path r o l out fuel' path' : r_derived_from (info r) = None -> Forall underived_field (or_empty (r_fields (info r))) ->
    some_there r -> fields_written m (r_fields (info r)) o -> repeated (register_instance_of m) (mapped (fun i => register_with i o) r) l ->
    concatM (expand_register_array m ix' fuel' path') l = Ok out -> exists out', expand_register_array m ix fuel path r = Ok out'.
  Proof.
    intros D U T W R E. rewrite (register_plain _ _ _ _ _ D). destruct R as [->|(is & I & ->)].
    - rewrite concat_one, register_plain in E by (destruct r; exact D). apply bind_ok in E as (fs & Fs & E).
      replace (r_fields (info (mapped (fun i => register_with i o) r))) with o in Fs by now destruct r.
      rewrite (fields_back fuel (new_register path (r_name (info r))) _ _ _ _ _ U W Fs). cbn [bind]. destruct r as [i|i d]; cbn [mapped] in *; eauto.
    - destruct (first_instance _ _ _ _ I T) as (y & Y).
      assert (r_derived_from y = None /\ r_fields y = o) as [D' F'].
      { pose proof (instances_in _ _ _ _ I Y) as Q. destruct r as [i|i d]; cbn in Q, D; [subst y; now split|]. destruct Q as (n & j & Q). cbn in Q.
        decompose [and] Q. split; congruence. }
      destruct (concat_each _ _ _ E (Single y) (in_map _ _ _ Y)) as (z & Z). rewrite register_plain in Z by exact D'. cbn [info] in Z.
      apply bind_ok in Z as (fs & Fs & _). rewrite F' in Fs.
      rewrite (fields_back fuel (new_register path (r_name (info r))) _ _ _ _ _ U W Fs). cbn [bind].
      apply (instances_map _ (fun i => register_with i fs)) in I; [|intros; now apply register_instance_with].
      destruct r as [i|i d]; cbn [mapped] in *; [eauto|]. change (register_with (register_with i o) fs) with (register_with i fs) in I.
      rewrite (register_reached _ _ _ _ I). cbn. eauto.
  Qed.
  Lemma child_back fuel : forall rc l path path' out, underived_child rc -> child_there rc -> child_written m rc l ->
    concatM (expand_rc m ix' fuel path') l = Ok out -> l <> [] -> exists out', expand_rc m ix fuel path rc = Ok out'.
  Proof.
    induction fuel as [|fuel IH]; intros rc l path path' out U T W E NE.
    { destruct l as [|a l]; [contradiction|discriminate E]. }
    assert (Nw : forall a k, child_there a -> child_written m a k -> k <> []).
    { intros a k Ta Wa. destruct Wa as [r o l' _ R|c ls l' _ R]; inversion Ta as [? S|? S _]; subst; (destruct R as [->|(is & I & ->)]; [discriminate|]);
        destruct (first_instance _ _ _ _ I S) as (y & Y); (destruct is; [destruct Y|discriminate]). }
    destruct W as [r o l W R|c ls l F R].
    - inversion U as [? D Uf|]; inversion T as [? S|]; subst. rewrite concatM_map in E. cbn [expand_rc] in *. eapply register_back; eauto.
    - inversion U as [|? D Uc]; inversion T as [|? S Tc]; subst. rewrite concatM_map in E. cbn [expand_rc]. unfold cluster_info, cluster in *. rewrite D.
      cbn [bind fst snd opt_default]. rewrite Forall_forall in Uc, Tc.
      assert (G : forall q kids, concatM (expand_rc m ix' fuel q) (List.concat ls) = Ok kids ->
        concatM (expand_rc m ix fuel (new_cluster path (c_name (info c)))) (c_children (info c)) = Ok kids).
      { intros q kids K. destruct (concat_back (expand_rc m ix fuel (new_cluster path (c_name (info c)))) _ _ _ _ _ F
          (fun a k o I Wa Ka => IH a k _ q o (Uc a I) (Tc a I) Wa Ka (Nw a k (Tc a I) Wa)) K) as (kids' & K').
        refine (eq_trans K' _). assert (J : concatM (expand_rc m ix' fuel q) (List.concat ls) = Ok kids'); [|congruence].
        eapply concat_parts; [exact F| |exact K']. intros a k o I Wa Ea. exact (child_repeated m ix ix' fuel a k _ q o (Uc a I) Wa Ea). }
      destruct R as [->|(is & I & ->)].
      + rewrite concat_one in E. cbn [expand_rc] in E. destruct c as [i|i d]; cbn in D, E; rewrite D in E; cbn [bind fst snd opt_default info c_children] in E;
          apply bind_ok in E as (kids & Ek & E); exists out; refine (eq_trans (f_equal (fun u => bind u _) (G _ _ Ek)) _); exact E.
      + rewrite concatM_map in E. destruct (first_instance _ _ _ _ I S) as (y0 & Y0).
        assert (K : forall y, In y is -> c_derived_from y = None /\ c_children y = List.concat ls).
        { intros y Y. pose proof (instances_in _ _ _ _ I Y) as Q. destruct c as [i|i d]; cbn in Q, D; [subst y; now split|]. destruct Q as (n & _ & Q1 & Q2).
          cbn in Q1, Q2. split; congruence. }
        destruct (concat_each _ _ _ E y0 Y0) as (z & Z). destruct (K y0 Y0) as [D0 F0]. cbn [expand_rc info] in Z. rewrite D0 in Z.
        cbn [bind fst snd opt_default info] in Z. rewrite F0 in Z. apply bind_ok in Z as (kids & Ek & _).
        match goal with |- exists o, bind _ ?v = _ => enough (X : exists o, v kids = Ok o)
          by (destruct X as (o & X); exists o; exact (eq_trans (f_equal (fun w => bind w v) (G _ _ Ek)) X)) end. cbv beta.
        assert (P : forall y, In y is -> exists q, expand_cluster m (c_with y kids None) = Ok q).
        { intros y Y. destruct (concat_each _ _ _ E y Y) as (z' & Z'). destruct (K y Y) as [Dy Fy]. cbn [expand_rc info] in Z'. rewrite Dy in Z'.
          cbn [bind fst snd opt_default info] in Z'. rewrite Fy in Z'. apply bind_ok in Z' as (kids' & Ek' & Z').
          assert (kids' = kids) by (pose proof (G _ _ Ek'); pose proof (G _ _ Ek); congruence). subst kids'. cbn [ma_map] in Z'. rewrite Dy in Z'. eauto. }
        destruct c as [i|i d]; cbn [mapped ma_map instances_of] in *.
        * subst is. destruct (P _ Y0) as (q & Q). exists q. destruct Y0 as [<-|[]]. exact Q.
        * assert (I' : instances_of (cluster_instance_of m) (Array (c_with i kids (c_derived_from i)) d) is).
          { destruct I as [L I]. split; [exact L|]. intros k Hk. destruct (I k Hk) as (y & Y & (j & J) & _). exists y. split; [exact Y|]. exists j. exact J. }
          destruct (cluster_reached _ _ _ _ I') as (bs & Eb & Sp). unfold cluster_expand in Eb.
          assert (C : Forall2 (fun n b => cluster_instance m (c_with i kids (c_derived_from i)) d n = Ok b) (upto (de_dim d)) bs) by now apply mapM_ok.
          apply concatM_exists. intros n Hn. destruct (Forall2_in_l _ _ _ C _ Hn) as (b & B & Hb). cbn [de_dim] in *.
          match goal with |- exists _, bind ?u _ = _ => change u with (cluster_instance m (c_with i kids (c_derived_from i)) d n) end.
          rewrite Hb. cbn [bind]. assert (Sb : In (spot b) (map spot is)) by (rewrite <- Sp; now apply in_map).
          apply in_map_iff in Sb as (y & Sy & Y). destruct (P y Y) as (q & Q). exists q. rewrite <- Q. unfold spot in Sy. injection Sy as S1 S2.
          apply cluster_known; cbn; [now symmetry|now symmetry|]. exact (instance_children _ _ _ _ _ Hb).
  Qed.
  Lemma peripheral_back fuel p l out : underived_peripheral p -> some_there p -> Forall child_there (or_empty (p_registers (info p))) -> peripheral_written m p l ->
    concatM (expand_peripheral m ix' fuel) l = Ok out -> exists out', expand_peripheral m ix fuel p = Ok out'.
  Proof.
    intros [D U] T Tc (o & W & R) E. rewrite (peripheral_plain _ _ _ _ D).
    assert (Nw : forall a k, child_there a -> child_written m a k -> k <> []).
    { intros a k Ta Wa. destruct Wa as [r o' l' _ R'|c ls l' _ R']; inversion Ta as [? S|? S _]; subst; (destruct R' as [->|(is & I & ->)]; [discriminate|]);
        destruct (first_instance _ _ _ _ I S) as (y & Y); (destruct is; [destruct Y|discriminate]). }
    assert (G : forall bp rs, children_done m ix' fuel bp o = Ok rs -> children_done m ix fuel (bp_new (p_name (info p))) (p_registers (info p)) = Ok rs).
    { intros bp rs K. destruct (p_registers (info p)) as [l0|], o as [l1|]; try contradiction; [|exact K]. destruct W as (ls & F & ->). cbn in K, U, Tc |- *.
      apply bind_ok in K as (k & K & Rs). injection Rs as <-. rewrite Forall_forall in U, Tc.
      destruct (concat_back (expand_rc m ix fuel (bp_new (p_name (info p)))) _ _ _ _ _ F
          (fun a k o I Wa Ka => child_back fuel a k _ bp o (U a I) (Tc a I) Wa Ka (Nw a k (Tc a I) Wa)) K) as (k' & K').
      rewrite K'. assert (J : concatM (expand_rc m ix' fuel bp) (List.concat ls) = Ok k'); [|cbn; congruence].
      eapply concat_parts; [exact F| |exact K']. intros a q z I Wa Ea. exact (child_repeated m ix ix' fuel a q _ bp z (U a I) Wa Ea). }
    destruct R as [->|(is & I & ->)].
    - rewrite concat_one, peripheral_plain in E by (destruct p; exact D). apply bind_ok in E as (rs & Rs & E).
      replace (p_registers (info (mapped (fun i => peripheral_with i o) p))) with o in Rs by now destruct p.
      rewrite (G _ _ Rs). cbn [bind]. destruct p as [i|i d]; cbn [mapped] in *; eauto.
    - destruct (first_instance _ _ _ _ I T) as (y & Y).
      assert (p_derived_from y = None /\ p_registers y = o) as [D' F'].
      { pose proof (instances_in _ _ _ _ I Y) as Q. destruct p as [i|i d]; cbn in Q, D; [subst y; now split|]. destruct Q as (n & j & Q). cbn in Q.
        decompose [and] Q. split; congruence. }
      destruct (concat_each _ _ _ E (Single y) (in_map _ _ _ Y)) as (z & Z). rewrite peripheral_plain in Z by exact D'. cbn [info] in Z.
      apply bind_ok in Z as (rs & Rs & _). rewrite F' in Rs. rewrite (G _ _ Rs). cbn [bind].
      apply (instances_map _ (fun i => peripheral_with i rs)) in I; [|intros; now apply peripheral_instance_with].
      destruct p as [i|i d]; cbn [mapped] in *; [eauto|]. change (peripheral_with (peripheral_with i o) rs) with (peripheral_with i rs) in I.
      rewrite (peripheral_reached _ _ _ _ I). cbn. eauto.
  Qed.
End Back.

(** ** The index *)
Lemma nameable_back {A} (name : A -> string) one x f l : repeated one (mapped f x) l -> (forall i, name (f i) = name i) ->
  (forall i d k y, one i d k y -> exists idx, index_text d k idx) -> (forall y, In y l -> nameable name y) -> nameable name x.
Proof.
  intros R N O H. destruct x as [i|i d]; [apply nameable_single|]. destruct R as [->|(is & [L I] & _)].
  - specialize (H _ (or_introl eq_refl)). unfold nameable, entry_names in *. cbn in *. now rewrite !N in H.
  - unfold nameable, entry_names. destruct (proj2 (names_total d (name i))) as (ns & E); [|rewrite E; cbn; eauto].
    intros k Hk. destruct (I k Hk) as (y & _ & Y). exact (O _ _ _ _ Y).
Qed.
Lemma parts_back {A B} (R : A -> list B -> Prop) (P : A -> Prop) (Q : B -> Prop) l ls :
  (forall a k, In a l -> R a k -> Forall Q k -> P a) -> Forall2 R l ls -> Forall Q (List.concat ls) -> Forall P l.
Proof.
  intros H F. induction F as [|a k l ls Ra F IH]; intros G; [constructor|]. cbn [List.concat] in G. apply Forall_app in G as [G1 G2].
  constructor; [exact (H a k (or_introl eq_refl) Ra G1)|]. exact (IH (fun a k I => H a k (or_intror I)) G2).
Qed.
Lemma fields_nameable_back m o o' : fields_written m o o' -> Forall (nameable f_name) (or_empty o') -> Forall (nameable f_name) (or_empty o).
Proof.
  destruct o as [fs|], o' as [fs'|]; cbn [fields_written or_empty]; try contradiction; [|constructor]. intros (ls & F & ->).
  apply (parts_back (repeated (field_instance_of m))); [|exact F]. intros a k _ R G. rewrite Forall_forall in G.
  apply (nameable_back f_name (field_instance_of m) a (fun i => i) k); [|reflexivity| |exact G].
  - now destruct a.
  - intros i d n y (idx & H & _). eauto.
Qed.
Lemma repeated_first {A} (one : A -> dim_element -> N -> A -> Prop) f x l : repeated one (mapped f x) l -> some_there x -> exists y, In y l.
Proof.
  intros [->|(is & I & ->)] T; [eexists; now left|]. destruct (first_instance _ _ _ _ I T) as (y & Y). exists (Single y). now apply in_map.
Qed.
Lemma child_listable_back m rc : forall l, child_there rc -> child_written m rc l -> Forall listable l -> listable rc.
Proof.
  induction rc as [r|c IH] using rc_tree_ind; intros l T W L; inversion W as [? o k F R|? ls k F R]; subst; inversion T as [? S|? S Tc]; subst;
    rewrite Forall_forall in L; destruct (repeated_first _ _ _ _ R S) as (y & Y).
  - constructor.
    + apply (nameable_back _ _ _ _ _ R); [reflexivity| |].
      * intros i d n z (idx & H & _). eauto.
      * intros z Z. specialize (L _ (in_map _ _ _ Z)). now inversion L.
    + apply (fields_nameable_back m _ _ F). rewrite <- (repeated_registers _ _ _ _ _ R Y). specialize (L _ (in_map _ _ _ Y)). now inversion L.
  - constructor.
    + apply (nameable_back _ _ _ _ _ R); [reflexivity| |].
      * intros i d n z ((idx & H & _) & _). eauto.
      * intros z Z. specialize (L _ (in_map _ _ _ Z)). now inversion L.
    + rewrite Forall_forall in IH, Tc. apply (parts_back (child_written m) _ listable _ ls); [|exact F|].
      * intros a q A Wa G. exact (IH a A q (Tc a A) Wa G).
      * rewrite <- (repeated_clusters _ _ _ _ _ R Y). specialize (L _ (in_map _ _ _ Y)). now inversion L.
Qed.
Lemma peripheral_listable_back m p l : some_there p -> Forall child_there (or_empty (p_registers (info p))) -> peripheral_written m p l ->
  Forall listable_p l -> listable_p p.
Proof.
  intros S T (o & W & R) L. rewrite Forall_forall in L. destruct (repeated_first _ _ _ _ R S) as (y & Y). split.
  - apply (nameable_back _ _ _ _ _ R); [reflexivity| |].
    + intros i d n z (idx & H & _). eauto.
    + intros z Z. exact (proj1 (L z Z)).
  - pose proof (proj2 (L y Y)) as G. rewrite (repeated_peripherals _ _ _ _ _ R Y) in G.
    destruct (p_registers (info p)) as [rs|], o as [rs'|]; try contradiction; [|constructor]. destruct W as (ls & F & ->). cbn [or_empty] in *.
    rewrite Forall_forall in T. apply (parts_back (child_written m) _ listable _ ls); [|exact F|exact G].
    intros a q A Wa K. exact (child_listable_back m a q (T a A) Wa K).
Qed.

Lemma expand_written_back m fuel d d' e : underived d -> device_there d -> device_written m d d' -> expand m fuel d' = Ok e -> expand m fuel d = Ok e.
Proof.
  intros U T W E'. enough (K : exists e0, expand m fuel d = Ok e0).
  { destruct K as (e0 & K). rewrite K. rewrite (expand_written m fuel d d' e0 U W K) in E'. exact E'. }
  destruct W as (S & ls & F & P). unfold expand in E'. apply bind_ok in E' as (ix' & I' & E). apply bind_ok in E as (ps & Ps & _).
  unfold device_there in T. rewrite Forall_forall in T. unfold underived in U. rewrite Forall_forall in U.
  assert (L : Forall listable_p (d_peripherals d)).
  { apply (parts_back (peripheral_written m) _ listable_p _ ls); [|exact F|].
    - intros a k A Wa G. exact (peripheral_listable_back m a k (proj1 (T a A)) (proj2 (T a A)) Wa G).
    - rewrite <- P. apply device_list. eauto. }
  apply device_list in L as (ix & I). unfold expand. rewrite I. cbn [bind]. rewrite P in Ps.
  destruct (concat_back (expand_peripheral m ix fuel) _ _ _ _ _ F (fun a k o A Wa Ka =>
    peripheral_back m ix ix' fuel a k o (U a A) (proj1 (T a A)) (proj2 (T a A)) Wa Ka) Ps) as (z & Z).
  rewrite Z. cbn. eauto.
Qed.
