(** What makes expansion fail. *)
From Verif Require Import Base BaseFacts SpecEnds EndProofs RankProofs Types TreeFacts ArrayProofs Derive DeriveProofs Arrays Expand SpecArray SpecDerive SpecPath PathProofs SpecExpand ExpandProofs PlaceProofs SpecCause SpecParse.

Section Wp.
  Variables (P : panic -> Prop) (X : err -> Prop).
  Definition wp {A} (r : res A) (Q : A -> Prop) : Prop :=
    match r with Ok a => Q a | Err e => X e | Panic p => P p end.
  Lemma wp_bind {A B} (r : res A) (f : A -> res B) Q : wp r (fun a => wp (f a) Q) -> wp (bind r f) Q.
  Proof. destruct r; auto. Qed.
  Lemma wp_weak {A} (r : res A) (Q Q' : A -> Prop) : wp r Q -> (forall a, Q a -> Q' a) -> wp r Q'.
  Proof. destruct r; cbn; auto. Qed.
  Lemma wp_mapM {A B} (f : A -> res B) (Q : B -> Prop) l : (forall a, In a l -> wp (f a) Q) -> wp (mapM f l) (Forall Q).
  Proof.
    induction l as [|a l IH]; intros H; cbn [mapM]; [constructor|].
    apply wp_bind. eapply wp_weak; [apply H; now left|]. intros b Qb. apply wp_bind.
    eapply wp_weak; [apply IH; intros; apply H; now right|]. intros bs Qbs. constructor; auto.
  Qed.
  Lemma wp_concatM {A B} (f : A -> res (list B)) (Q : B -> Prop) l :
    (forall a, In a l -> wp (f a) (Forall Q)) -> wp (concatM f l) (Forall Q).
  Proof.
    induction l as [|a l IH]; intros H; cbn [concatM]; [constructor|].
    apply wp_bind. eapply wp_weak; [apply H; now left|]. intros b Qb. apply wp_bind.
    eapply wp_weak; [apply IH; intros; apply H; now right|]. intros bs Qbs. apply Forall_app; auto.
  Qed.

  Variable m : mode.
  Hypothesis PO : m = Debug -> P Overflow.
  Hypothesis PF : P OutOfFuel.
  Variable E : dim_element -> Prop.
  Hypothesis HE : forall e, E e -> enough e \/ P OutOfBounds.
  Hypothesis HN : forall e, E e ->
    E {| de_dim := de_dim e; de_increment := de_increment e; de_index := de_index e;
         de_name := None; de_array_index := de_array_index e |}.
  Variables R FR : string -> Prop.
  Hypothesis HR : forall s k t, R s \/ FR s -> X (ESelfDerived k t) /\ X (ENotFound k t).
  Hypothesis HF : forall s, FR s -> ~ two_parts s \/ P Unwrap.

  Definition ref_ok (R : string -> Prop) (o : option string) : Prop := forall s, o = Some s -> R s.
  Definition dims_ok {A} (x : maybe_array A) : Prop := forall e, dims x = Some e -> E e.
  Definition good_v (e : enumerated_values) : Prop := ref_ok R (evs_derived_from e).
  Definition good_f (f : field) : Prop :=
    dims_ok f /\ ref_ok FR (f_derived_from (info f)) /\ Forall good_v (f_enumerated_values (info f)).
  Definition good_r (r : register) : Prop :=
    dims_ok r /\ ref_ok R (r_derived_from (info r)) /\ Forall good_f (or_empty (r_fields (info r))).
  Inductive good_rc : register_cluster -> Prop :=
    | g_reg r : good_r r -> good_rc (RCRegister r)
    | g_clu (c : cluster) : dims_ok c -> ref_ok R (c_derived_from (info c)) ->
        Forall good_rc (c_children (info c)) -> good_rc (RCCluster c).
  Definition good_p (p : peripheral) : Prop :=
    dims_ok p /\ ref_ok R (p_derived_from (info p)) /\ Forall good_rc (or_empty (p_registers (info p))).

  Lemma dims_map {A B} (f : A -> B) (x : maybe_array A) : dims (ma_map f x) = dims x.
  Proof. destruct x; reflexivity. Qed.
  Lemma info_map {A B} (f : A -> B) (x : maybe_array A) : info (ma_map f x) = f (info x).
  Proof. destruct x; reflexivity. Qed.
  Lemma dims_derive {A} (name : A -> string) derive (x y : maybe_array A) :
    dims_ok x -> dims_ok y -> dims_ok (ma_derive name derive x y).
  Proof using HN.
    unfold dims_ok. destruct x as [a|a d], y as [b|b d']; cbn; intros Hx Hy e; try discriminate; auto.
    destruct (contains _ _); cbn; [|discriminate]. intros [= <-]. apply HN, Hy, eq_refl.
  Qed.
  Lemma info_derive {A} (name : A -> string) derive (x y : maybe_array A) :
    info (ma_derive name derive x y) = derive (info x) (info y).
  Proof. destruct x, y; cbn; try reflexivity. destruct (contains _ _); reflexivity. Qed.

  Lemma wp_add b x y (Q : N -> Prop) : (forall n, Q n) -> wp (add_w b m x y) Q.
  Proof using PO.
    intros H. unfold add_w. destruct (_ <? _); [apply H|]. destruct m eqn:Em; [apply PO; reflexivity|apply H].
  Qed.
  Lemma wp_mul b x y (Q : N -> Prop) : (forall n, Q n) -> wp (mul_w b m x y) Q.
  Proof using PO.
    intros H. unfold mul_w. destruct (_ <? _); [apply H|]. destruct m eqn:Em; [apply PO; reflexivity|apply H].
  Qed.
  Lemma wp_offset b d i (Q : N -> Prop) : (forall n, Q n) -> wp (offset_at m b d i) Q.
  Proof using PO. intros H. apply wp_bind, wp_mul. intros n. apply wp_add, H. Qed.
  Lemma wp_base b d i (Q : N -> Prop) : (forall n, Q n) -> wp (base_at m b d i) Q.
  Proof using PO. intros H. apply wp_bind, wp_mul. intros n. apply wp_add, H. Qed.
  Lemma wp_index e i (Q : string -> Prop) : E e -> In i (upto (de_dim e)) -> (forall s, Q s) -> wp (index_at e i) Q.
  Proof using HE.
    intros G I H. apply in_upto in I. unfold index_at. destruct (de_index e) as [l|] eqn:El; [|apply H].
    unfold index_N, nth_N. destruct (nth_error l (N.to_nat i)) eqn:En; [apply H|]. cbn.
    destruct (HE e G) as [K|K]; [|exact K]. exfalso. apply nth_error_None in En. specialize (K l El). clear - K En I. lia.
  Qed.
  Lemma wp_names {A} (name : A -> string) x : dims_ok x -> wp (entry_names name x) (fun _ => True).
  Proof using HE.
    intros D. unfold entry_names. apply wp_bind. destruct x as [a|a e]; cbn [wp]; [exact I|].
    eapply wp_weak; [apply (wp_mapM _ (fun _ => True))|intros; exact I].
    intros i Hi. apply wp_bind, wp_index; [apply D; reflexivity|exact Hi|]. intros; exact I.
  Qed.
  Lemma all_true {A} (l : list A) : Forall (fun _ => True) l.
  Proof. apply Forall_forall. auto. Qed.
  Lemma wp_any {A} (r : res (list A)) : wp r (fun _ => True) -> wp r (Forall (fun _ => True)).
  Proof. intros H. eapply wp_weak; [exact H|]. intros; apply all_true. Qed.
  Lemma wp_concat {A B} (f : A -> res (list B)) l : (forall a, In a l -> wp (f a) (fun _ => True)) -> wp (concatM f l) (fun _ => True).
  Proof. intros H. eapply wp_weak; [apply (wp_concatM _ (fun _ => True)); intros; apply wp_any, H; auto|]. auto. Qed.

  Lemma wp_add_register b r : good_r r -> wp (add_register b r) (fun _ => True).
  Proof using HE.
    intros (D & _ & F). unfold add_register. apply wp_bind. eapply wp_weak; [apply wp_names; exact D|]. intros ns _.
    apply wp_concat. intros n _. unfold register_at. apply wp_bind.
    eapply wp_weak; [apply wp_concat|intros; exact I]. intros f If. unfold add_field. apply wp_bind.
    eapply wp_weak; [apply wp_names|intros; exact I]. rewrite Forall_forall in F. apply (F f). exact If.
  Qed.
  Lemma wp_add_rc rc : good_rc rc -> forall b, wp (add_rc b rc) (fun _ => True).
  Proof using HE.
    induction rc as [r|c IH] using rc_tree_ind; intros G b; inversion G; subst; cbn [add_rc].
    - apply wp_add_register; assumption.
    - match goal with H : Forall good_rc _ |- _ => rename H into K end. rewrite Forall_forall in IH, K.
      apply wp_bind. eapply wp_weak; [apply wp_names; assumption|]. intros ns _. apply wp_concat. intros n _.
      apply wp_bind. eapply wp_weak; [apply wp_concat|].
      + intros [r|c'] Ic; [|exact I]. apply IH; auto.
      + intros rs _. apply wp_bind. eapply wp_weak; [apply wp_concat|intros; exact I].
        intros [r|c'] Ic; [exact I|]. apply IH; auto.
  Qed.
  Lemma wp_create d : Forall good_p (d_peripherals d) -> wp (index_create d) (fun _ => True).
  Proof using HE.
    intros G. rewrite Forall_forall in G. apply wp_concat. intros p Ip. destruct (G p Ip) as (D & _ & K).
    rewrite Forall_forall in K. unfold add_peripheral. apply wp_bind.
    eapply wp_weak; [apply wp_names; assumption|]. intros ns _. apply wp_concat. intros n _.
    assert (Kc : forall rc, In rc (p_children (info p)) -> good_rc rc).
    { intros rc Ic. apply K. unfold p_children in Ic. destruct (p_registers (info p)); exact Ic. }
    apply wp_bind. eapply wp_weak; [apply wp_concat|].
    - intros r Ir. apply wp_add_register. apply in_rc_registers, Kc in Ir. inversion Ir; assumption.
    - intros rs _. apply wp_bind. eapply wp_weak; [apply wp_concat|intros; exact I].
      intros c Ir. apply wp_add_rc. apply in_rc_clusters, Kc in Ir. exact Ir.
  Qed.

  Variable ix : index.
  Hypothesis G1 : forall q x, ix_peripheral ix q = Some x -> good_p x.
  Hypothesis G2 : forall q x, ix_cluster ix q = Some x -> good_rc (RCCluster x).
  Hypothesis G3 : forall q x, ix_register ix q = Some x -> good_r x.
  Hypothesis G4 : forall q x, ix_field ix q = Some x -> good_f x.
  Hypothesis G5 : forall q x, ix_enum ix q = Some x -> good_v x.

  Lemma wp_ok_or {A} (o : option A) e (Q : A -> Prop) : X e -> (forall a, o = Some a -> Q a) -> wp (ok_or o e) Q.
  Proof. destruct o; cbn; auto. Qed.
  Lemma wp_parse s (Q : _ -> Prop) : (forall q, Q q) -> wp (bp_parse_str s) Q.
  Proof. intros H. destruct (bp_parse_str_total s) as (o & n & ->). apply H. Qed.
  Lemma wp_parse_field s (Q : _ -> Prop) : FR s -> (forall q, Q q) -> wp (fp_parse_str s) Q.
  Proof using HF.
    intros F H. destruct (fp_parse_str_cases s) as [(o & n & ->)|K]; [apply H|]. rewrite K. cbn.
    destruct (HF s F) as [T|T]; [|exact T]. exfalso. apply T, fp_parse_str_bad, K.
  Qed.
  Lemma forall_opt {A} (Q : A -> Prop) (a b : option (list A)) : Forall Q (or_empty a) -> Forall Q (or_empty b) ->
    Forall Q (or_empty (opt_or a b)).
  Proof. destruct a; cbn; auto. Qed.

  Lemma wp_derive_peripheral fuel : forall p s, good_p p -> R s ->
    wp (derive_peripheral ix fuel p s) (fun q => good_p (fst q)).
  Proof using PF HN HR G1.
    induction fuel as [|k IH]; intros p s G Hs; cbn [derive_peripheral]; [apply PF|].
    destruct (seqb _ _); [apply (HR s); auto|]. apply wp_bind, wp_ok_or; [apply (HR s); auto|]. intros d Hd.
    apply G1 in Hd. cbv zeta.
    assert (K : good_p (peripheral_ma_derive p d)).
    { destruct G as (D & Rf & F), Hd as (D' & Rf' & F'). split; [|split]; [apply dims_derive; assumption| |];
      unfold peripheral_ma_derive; rewrite info_derive; [exact Rf|]. apply forall_opt; assumption. }
    destruct (p_derived_from (info d)) eqn:Ed; [|exact K]. apply IH; [exact K|]. apply Hd, Ed.
  Qed.
  Lemma wp_derive_cluster fuel : forall (c : cluster) s b, good_rc (RCCluster c) -> R s ->
    wp (derive_cluster ix fuel c s b) (fun q => good_rc (RCCluster (fst q))).
  Proof using PF HN HR G2.
    induction fuel as [|k IH]; intros c s b G Hs; cbn [derive_cluster]; [apply PF|].
    apply wp_bind, wp_parse. intros q. cbv zeta.
    destruct (_ && _); [apply (HR s); auto|]. apply wp_bind, wp_ok_or; [apply (HR s); auto|]. intros d Hd.
    apply G2 in Hd.
    assert (K : good_rc (RCCluster (cluster_ma_derive c d))).
    { inversion G as [|? D Rf F]; subst. inversion Hd as [|? D' Rf' F']; subst.
      constructor; [apply dims_derive; assumption| |];
      unfold cluster_ma_derive; rewrite info_derive; [exact Rf|]. cbn.
      destruct (c_children (info c)); [exact F'|exact F]. }
    destruct (c_derived_from (info d)) eqn:Ed; [|exact K]. apply IH; [exact K|]. inversion Hd; subst. auto.
  Qed.
  Lemma wp_derive_register fuel : forall r s b, good_r r -> R s ->
    wp (derive_register ix fuel r s b) (fun q => good_r (fst q)).
  Proof using PF HN HR G3.
    induction fuel as [|k IH]; intros r s b G Hs; cbn [derive_register]; [apply PF|].
    apply wp_bind, wp_parse. intros q. cbv zeta.
    destruct (_ && _); [apply (HR s); auto|]. apply wp_bind, wp_ok_or; [apply (HR s); auto|]. intros d Hd.
    apply G3 in Hd.
    assert (K : good_r (register_ma_derive r d)).
    { destruct G as (D & Rf & F), Hd as (D' & Rf' & F'). split; [|split]; [apply dims_derive; assumption| |];
      unfold register_ma_derive; rewrite info_derive; [exact Rf|]. apply forall_opt; assumption. }
    destruct (r_derived_from (info d)) eqn:Ed; [|exact K]. apply IH; [exact K|]. apply Hd, Ed.
  Qed.
  Lemma wp_derive_field fuel : forall f s b, good_f f -> FR s ->
    wp (derive_field ix fuel f s b) (fun q => good_f (fst q)).
  Proof using PF HN HR HF G4.
    induction fuel as [|k IH]; intros f s b G Hs; cbn [derive_field]; [apply PF|].
    apply wp_bind, wp_parse_field; [exact Hs|]. intros q. cbv zeta.
    destruct (_ && _); [apply (HR s); auto|]. apply wp_bind, wp_ok_or; [apply (HR s); auto|]. intros d Hd.
    apply G4 in Hd.
    assert (K : good_f (field_ma_derive f d)).
    { destruct G as (D & Rf & F), Hd as (D' & Rf' & F'). split; [|split]; [apply dims_derive; assumption| |];
      unfold field_ma_derive; rewrite info_derive; [exact Rf|]. cbn.
      destruct (f_enumerated_values (info f)); [exact F'|exact F]. }
    destruct (f_derived_from (info d)) eqn:Ed; [|exact K]. apply IH; [exact K|]. apply Hd, Ed.
  Qed.
  Lemma enum_in_fields_good rp n fs d ep : enum_in_fields ix rp n fs = Some (d, ep) -> good_v d.
  Proof using G5.
    induction fs as [|f fs IH]; cbn; [discriminate|].
    destruct (ix_enum ix _) eqn:E1; [intros [= <- _]; eapply G5; exact E1|exact IH].
  Qed.
  Lemma wp_derive_enum fuel : forall e s b, R s -> wp (derive_enum ix fuel e s b) (fun _ => True).
  Proof using PF HR G5.
    induction fuel as [|k IH]; intros e s b Hs; cbn [derive_enum]; [apply PF|].
    destruct (is_name _ _); [apply (HR s); auto|].
    pose proof (split_nonempty "." s) as NE. destruct (pop_last _ NE) as (i & z & Ep & _).
    rewrite Ep. cbn [unwrap bind fst snd]. apply wp_bind.
    apply wp_weak with (Q := fun found => match found with Some (d, _) => good_v d | None => True end).
    - destruct (pop i) as [[v fd]|] eqn:Ei.
      + assert (V : forall Q : field_path -> Prop, (forall x, Q x) ->
          wp (if is_nil v then Ok (new_field (fp_register b) fd)
              else let* rq := bp_parse_vec v in
                   Ok (FieldPath (new_register (opt_default (rg_block (fp_register b)) (fst rq)) (snd rq)) fd)) Q).
        { intros Q HQ. destruct v as [|x v]; [apply HQ|]. cbn [is_nil].
          destruct (bp_parse_vec_total (x :: v)) as (o & n & ->); [discriminate|]. apply HQ. }
        apply wp_bind, V. intros x. destruct (_ && _); [apply (HR s); auto|]. cbn.
        destruct (ix_enum ix _) eqn:E1; cbn; [eapply G5; exact E1|exact I].
      + cbn. destruct (ix_register ix _); [|exact I].
        destruct (enum_in_fields _ _ _ _) as [[d ep]|] eqn:E1; [eapply enum_in_fields_good; exact E1|exact I].
    - intros [[d ep]|] Hd; [|apply (HR s); auto].
      cbv zeta. destruct (evs_derived_from d) eqn:Ed; [|exact I]. apply IH. apply Hd, Ed.
  Qed.
  Lemma wp_expand_enum fuel fp e : good_v e -> wp (expand_enum ix fuel fp e) (fun _ => True).
  Proof using PF HR G5.
    intros G. unfold expand_enum. destruct (evs_derived_from e) eqn:Ed; [|exact I].
    apply wp_bind. eapply wp_weak; [apply wp_derive_enum, G, Ed|]. intros; exact I.
  Qed.
  Lemma wp_expand_field fuel rp f : good_f f -> wp (expand_field m ix fuel rp f) (fun _ => True).
  Proof using PO PF HE HN HR HF G4 G5.
    intros G. unfold expand_field. apply wp_bind. apply wp_weak with (Q := fun q => good_f (fst q)).
    { destruct (f_derived_from (info f)) as [s|] eqn:Ed; [|exact G]. apply wp_derive_field; [|apply G, Ed].
      destruct G as (D & _ & V). unfold good_f, dims_ok. rewrite dims_map, info_map. split; [exact D|].
      split; [discriminate|exact V]. }
    intros [f1 fp] (D & _ & V). cbn [fst snd] in *. cbv zeta. apply wp_bind.
    apply wp_weak with (Q := Forall (fun _ => True)).
    { apply wp_mapM. rewrite Forall_forall in V. intros e Ie. apply wp_expand_enum, V, Ie. }
    intros evs _. destruct f1 as [i|i e]; cbn [ma_map]; [exact I|]. apply wp_bind.
    eapply wp_weak; [apply (wp_mapM _ (fun _ => True))|intros; exact I]. intros j Ij. unfold field_instance.
    apply wp_bind, wp_index; [apply D; reflexivity|exact Ij|]. intros idx. apply wp_bind, wp_offset. intros; exact I.
  Qed.
  Definition is_register (rc : register_cluster) : Prop := exists r, rc = RCRegister r.
  Lemma wp_expand_register fuel b r : good_r r -> wp (expand_register_array m ix fuel b r) (Forall is_register).
  Proof using PO PF HE HN HR HF G3 G4 G5.
    intros G. unfold expand_register_array. apply wp_bind. apply wp_weak with (Q := fun q => good_r (fst q)).
    { destruct (r_derived_from (info r)) as [s|] eqn:Ed; [|exact G]. apply wp_derive_register; [|apply G, Ed].
      destruct G as (D & _ & V). unfold good_r, dims_ok. rewrite dims_map, info_map. split; [exact D|].
      split; [discriminate|exact V]. }
    intros [r1 rp] (D & _ & V). cbn [fst snd] in *. cbv zeta. apply wp_bind.
    apply wp_weak with (Q := fun r2 => dims_ok r2).
    { destruct (r_fields (info r1)) as [fs|]; [|exact D]. apply wp_bind.
      eapply wp_weak; [apply wp_concat|].
      - intros f If. apply wp_expand_field. rewrite Forall_forall in V. apply V, If.
      - intros l _. unfold dims_ok, wp. rewrite dims_map. exact D. }
    intros [i|i e] D2; [repeat constructor; eexists; reflexivity|]. apply wp_bind.
    eapply wp_weak; [apply (wp_mapM _ (fun _ => True))|].
    - intros j Ij. unfold register_instance.
      apply wp_bind, wp_index; [apply D2; reflexivity|exact Ij|]. intros idx. apply wp_bind, wp_offset. intros; exact I.
    - intros l _. apply Forall_forall. intros x Ix. apply in_map_iff in Ix. destruct Ix as (y & <- & _). eexists; reflexivity.
  Qed.
  Lemma wp_expand_cluster c : Forall is_register (c_children c) -> wp (expand_cluster m c) (Forall is_register).
  Proof using PO.
    intros F. rewrite Forall_forall in F. apply wp_mapM. intros rc Ic. destruct (F rc Ic) as [r ->].
    apply wp_bind, wp_add. intros n. eexists; reflexivity.
  Qed.
  Lemma wp_expand_rc fuel : forall b rc, good_rc rc -> wp (expand_rc m ix fuel b rc) (Forall is_register).
  Proof using PO PF HE HN HR HF G2 G3 G4 G5.
    induction fuel as [|k IH]; intros b rc G; cbn [expand_rc]; [apply PF|].
    destruct rc as [r|c]; [apply wp_expand_register; inversion G; assumption|].
    apply wp_bind. apply wp_weak with (Q := fun q => good_rc (RCCluster (fst q))).
    { inversion G as [|? D Rf K]; subst.
      destruct (c_derived_from (info c)) as [s|] eqn:Ed; [|exact G]. apply wp_derive_cluster; [|apply Rf, Ed].
      constructor; unfold dims_ok; rewrite ?dims_map, ?info_map; [exact D|discriminate|exact K]. }
    intros [c1 cp] G'. inversion G' as [|? D _ K]; subst. cbn [fst snd] in *. cbv zeta. apply wp_bind.
    apply wp_weak with (Q := Forall is_register).
    { apply wp_concatM. rewrite Forall_forall in K. intros rc Ic. apply IH, K, Ic. }
    intros kids Fk. destruct c1 as [i|i e]; cbn [ma_map]; [apply wp_expand_cluster, Fk|].
    apply wp_concatM. intros j Ij. apply wp_bind. unfold cluster_instance.
    apply wp_bind, wp_index; [apply D; reflexivity|exact Ij|]. intros idx. apply wp_bind, wp_offset. intros n.
    apply wp_expand_cluster, Fk.
  Qed.
  Lemma wp_expand_peripheral fuel p : good_p p -> wp (expand_peripheral m ix fuel p) (fun _ => True).
  Proof using PO PF HE HN HR HF G1 G2 G3 G4 G5.
    intros G. unfold expand_peripheral. apply wp_bind. apply wp_weak with (Q := fun q => good_p (fst q)).
    { destruct (p_derived_from (info p)) as [s|] eqn:Ed; [|exact G]. apply wp_derive_peripheral; [|apply G, Ed].
      destruct G as (D & _ & V). unfold good_p, dims_ok. rewrite dims_map, info_map. split; [exact D|].
      split; [discriminate|exact V]. }
    intros [p1 rp] (D & _ & V). cbn [fst snd] in *. cbv zeta. apply wp_bind.
    apply wp_weak with (Q := fun p2 => dims_ok p2).
    { destruct (p_registers (info p1)) as [fs|]; [|exact D]. apply wp_bind.
      eapply wp_weak; [apply (wp_concatM _ is_register)|].
      - intros f If. apply wp_expand_rc. rewrite Forall_forall in V. apply V, If.
      - intros l _. unfold dims_ok, wp. rewrite dims_map. exact D. }
    intros [i|i e] D2; [exact I|]. apply wp_bind.
    eapply wp_weak; [apply (wp_mapM _ (fun _ => True))|intros; exact I].
    intros j Ij. unfold peripheral_instance.
    apply wp_bind, wp_index; [apply D2; reflexivity|exact Ij|]. intros idx. apply wp_bind, wp_base. intros; exact I.
  Qed.
End Wp.

(** ** Devices *)
Section Devices.
  Variables (E : dim_element -> Prop) (R FR : string -> Prop) (d : device).
  Hypothesis DE : forall n e, array_in_device d n e -> E e.
  Hypothesis DR : forall s, other_reference d s -> R s.
  Hypothesis DF : forall s, field_reference d s -> FR s.
  Lemma array_child rc : child_of d rc -> forall n e, array_in_rc rc n e -> array_in_device d n e.
  Proof using Type.
    induction 1 as [p rc I1 I2|c rc C IH I1]; intros n e A.
    - eapply ad_child; [exact I1|]. destruct (p_registers (info p)) as [rcs|] eqn:Er; [|destruct I2].
      eapply ap_child; [exact Er|exact I2|exact A].
    - apply IH. eapply ac_child; eassumption.
  Qed.
  Lemma field_good f : field_of d f -> good_f E R FR f.
  Proof using DE DR DF.
    intros F. pose proof F as (r & C & If). destruct (r_fields (info r)) as [fs|] eqn:Er; [|destruct If].
    split; [|split].
    - intros e He. destruct f as [i|i e']; [discriminate|]. injection He as ->.
      eapply DE, (array_child _ C), ac_in_register, ar_field; [exact Er|exact If].
    - intros s Hs. apply DF. exists f. auto.
    - apply Forall_forall. intros v Iv s Hs. apply DR. right; right; right. exists v. split; [exists f; auto|exact Hs].
  Qed.
  Lemma register_good r : child_of d (RCRegister r) -> good_r E R FR r.
  Proof using DE DR DF.
    intros C. split; [|split].
    - intros e He. destruct r as [i|i e']; [discriminate|]. injection He as ->. eapply DE, (array_child _ C), ac_register.
    - intros s Hs. apply DR. right; right; left. exists r. auto.
    - apply Forall_forall. intros f If. apply field_good. exists r. auto.
  Qed.
  Lemma child_good rc : child_of d rc -> good_rc E R FR rc.
  Proof using DE DR DF.
    induction rc as [r|c IH] using rc_tree_ind; intros C; [constructor; apply register_good, C|].
    constructor.
    - intros e He. destruct c as [i|i e']; [discriminate|]. injection He as ->. eapply DE, (array_child _ C), ac_cluster.
    - intros s Hs. apply DR. right; left. exists c. auto.
    - rewrite Forall_forall in *. intros rc I. apply IH; [exact I|]. eapply co_in; eassumption.
  Qed.
  Lemma peripheral_good p : In p (d_peripherals d) -> good_p E R FR p.
  Proof using DE DR DF.
    intros I. split; [|split].
    - intros e He. destruct p as [i|i e']; [discriminate|]. injection He as ->. eapply DE, ad_peripheral, I.
    - intros s Hs. apply DR. left. exists p. auto.
    - apply Forall_forall. intros rc Ic. apply child_good. eapply co_top; eassumption.
  Qed.
  Lemma placed_child path kids : children_placed d path kids -> forall rc, In rc kids -> child_of d rc.
  Proof using Type.
    induction 1 as [path p (n & _ & Ip & _)|path n kids c C IH I1 Nm]; intros rc I2; [eapply co_top; eassumption|].
    eapply co_in; [apply IH, I1|exact I2].
  Qed.
  Lemma placed_register path r : register_placed d path r -> child_of d (RCRegister r).
  Proof using Type. intros (b & n & kids & _ & C & Ir & _). eapply placed_child; eassumption. Qed.
  Lemma placed_field path f : field_placed d path f -> field_of d f.
  Proof using Type. intros (b & n & r & _ & C & Ir & _). exists r. split; [eapply placed_register; eassumption|exact Ir]. Qed.

  Lemma expand_wp (P : panic -> Prop) (X : err -> Prop) m fuel :
    (m = Debug -> P Overflow) -> P OutOfFuel ->
    (forall e, E e -> enough e \/ P OutOfBounds) ->
    (forall e, E e ->
      E {| de_dim := de_dim e; de_increment := de_increment e; de_index := de_index e;
           de_name := None; de_array_index := de_array_index e |}) ->
    (forall s k t, R s \/ FR s -> X (ESelfDerived k t) /\ X (ENotFound k t)) ->
    (forall s, FR s -> ~ two_parts s \/ P Unwrap) ->
    wp P X (expand m fuel d) (fun _ => True).
  Proof using DE DR DF.
    intros PO PF HE HN HR HF. unfold expand. apply wp_bind.
    assert (W : wp P X (index_create d) (fun _ => True)).
    { eapply wp_create; [exact HE|]. apply Forall_forall. exact peripheral_good. }
    destruct (index_create d) as [ix|e|p] eqn:Ei; try exact W. clear W. cbn [wp]. apply wp_bind.
    apply wp_concat. intros p Ip.
    eapply (wp_expand_peripheral P X m PO PF E HE HN R FR HR HF ix); [| | | | |apply peripheral_good, Ip].
    - intros q x H. apply (ix_peripheral_sound d ix Ei) in H. destruct H as (n & _ & I1 & _). apply peripheral_good, I1.
    - intros q x H. apply (ix_cluster_sound d ix Ei) in H. destruct H as (b & n & kids & _ & C & I1 & _).
      apply child_good. eapply placed_child; eassumption.
    - intros q x H. apply (ix_register_sound d ix Ei) in H. eapply register_good, placed_register, H.
    - intros q x H. apply (ix_field_sound d ix Ei) in H. eapply field_good, placed_field, H.
    - intros q x H. apply (ix_enum_sound d ix Ei) in H. destruct H as (b & n & f & _ & C & I1 & _).
      apply placed_field in C. intros s Hs. apply DR. right; right; right. exists x. split; [exists f; auto|exact Hs].
  Qed.
End Devices.

Lemma expand_bounds m fuel d : (forall n e, array_in_device d n e -> enough e) -> expand m fuel d <> Panic OutOfBounds.
Proof.
  intros D H. pose proof (expand_wp enough (fun _ => True) (fun _ => True) d D (fun _ _ => I) (fun _ _ => I)
    (fun p => p <> OutOfBounds) (fun _ => True) m fuel) as W. rewrite H in W.
  apply W; auto; discriminate || (intros; right; discriminate).
Qed.
Lemma expand_unwrap m fuel d : (forall s, field_reference d s -> ~ two_parts s) -> expand m fuel d <> Panic Unwrap.
Proof.
  intros D H. pose proof (expand_wp (fun _ => True) (fun _ => True) (fun s => ~ two_parts s) d (fun _ _ _ => I) (fun _ _ => I) D
    (fun p => p <> Unwrap) (fun _ => True) m fuel) as W. rewrite H in W.
  apply W; auto; discriminate || (intros; right; discriminate).
Qed.
Lemma expand_error m fuel d e : expand m fuel d = Err e ->
  (exists k s, e = ESelfDerived k s \/ e = ENotFound k s) /\ exists s, field_reference d s \/ other_reference d s.
Proof.
  intros H.
  pose proof (expand_wp (fun _ => True) (other_reference d) (field_reference d) d (fun _ _ _ => I) (fun _ H => H) (fun _ H => H)
    (fun p => True) (fun e => (exists k s, e = ESelfDerived k s \/ e = ENotFound k s) /\ exists s, field_reference d s \/ other_reference d s)
    m fuel) as W. rewrite H in W.
  apply W; auto. intros s k t K. split; (split; [exists k, t; auto|exists s; tauto]).
Qed.

Fixpoint height (rc : register_cluster) : nat :=
  match rc with
  | RCRegister _ => O
  | RCCluster c => S (fold_right (fun x n => Nat.max (height x) n) O (c_children (info c)))
  end.
Lemma height_in l rc : In rc l -> (height rc <= fold_right (fun x n => Nat.max (height x) n) O l)%nat.
Proof. induction l as [|x l IH]; intros I; [destruct I|]. cbn [fold_right]. destruct I as [->|I]; [lia|]. specialize (IH I). lia. Qed.
Lemma height_child (c : cluster) rc : In rc (c_children (info c)) -> (height rc < height (RCCluster c))%nat.
Proof. intros I. exact (le_n_S _ _ (height_in _ _ I)). Qed.
Lemma underived_acyclic d : (forall s, ~ field_reference d s) -> (forall s, ~ other_reference d s) -> acyclic d.
Proof.
  intros F O. split; [|split; [|split; [|split]]].
  - exists (fun _ => 0%nat). intros path x s path' y (n & _ & I & _) E. exfalso. apply (O s). left. eauto.
  - exists (fun c => height (RCCluster c)). split.
    + intros path x s path' y (b & n & kids & _ & C & I & _) E. exfalso. apply (O s). right; left.
      exists x. split; [eapply placed_child; eassumption|exact E].
    + intros path c x _ I. apply height_child, I.
  - exists (fun _ => 0%nat). intros path x s path' y P E. exfalso. apply (O s). right; right; left.
    exists x. split; [eapply placed_register, P|exact E].
  - exists (fun _ => 0%nat). intros path x s path' y P E. exfalso. apply (F s). exists x. split; [eapply placed_field, P|exact E].
  - exists (fun _ => 0%nat). intros path x s path' y (b & n & f & _ & C & I & _) E. exfalso. apply (O s). right; right; right.
    exists x. split; [exists f; split; [eapply placed_field, C|exact I]|exact E].
Qed.
Lemma expand_total m d : (forall s, ~ field_reference d s) -> (forall s, ~ other_reference d s) ->
  (forall n e, array_in_device d n e -> enough e) ->
  exists k r, ((exists d', r = Ok d') \/ (m = Debug /\ r = Panic Overflow)) /\ forall k', (k <= k')%nat -> expand m k' d = r.
Proof.
  intros F O D. destruct (expand_settles m d (acyclic_ends d (underived_acyclic d F O))) as (k & r & N & H).
  exists k, r. split; [|exact H]. specialize (H k (le_n _)). destruct r as [d'|e|p]; [eauto| |].
  - apply expand_error in H. destruct H as (_ & s & [K|K]); exfalso; [exact (F s K)|exact (O s K)].
  - right. pose proof (expand_bounds m k d D). assert (expand m k d <> Panic Unwrap) by (apply expand_unwrap; intros s K; destruct (F s K)).
    destruct (expand_panics m k d _ H) as [->|[->|[->|[-> ->]]]]; try congruence. auto.
Qed.
