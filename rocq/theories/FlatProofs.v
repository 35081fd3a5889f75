From Verif Require Import BaseFacts Types TreeFacts SpecArray SpecDerive SpecPath SpecExpand SpecFlat PathProofs ChainProofs MeaningProofs.

Lemma nearest_one {A B} (get : A -> option B) x v : nearest get [x] v -> v = get x.
Proof. cbn. intros [(b & E & ->)|[E ->]]; congruence. Qed.
Lemma nearest_list_one {A B} (get : A -> list B) x v : nearest_list get [x] v -> v = get x.
Proof. cbn. intros [(b & ->)|[E ->]]; congruence. Qed.
Lemma nearest_props_one {A} (get : A -> reg_props) x v : nearest_props get [x] v -> v = get x.
Proof.
  intros (H1 & H2 & H3 & H4 & H5). apply nearest_one in H1, H2, H3, H4, H5.
  destruct v; cbn in *. rewrite H1, H2, H3, H4, H5. now destruct (get x).
Qed.
Lemma nearest_dims_none {A} (name : A -> string) x y : nearest_dims name x [] y -> dims y = dims x.
Proof.
  unfold nearest_dims. destruct (dims x); [auto|]. intros [H1 H2].
  destruct (contains "%s" (name (info x))) eqn:E.
  - apply DeriveProofs.contains_occurs in E. destruct (H1 E) as (o & -> & K). destruct (dims y); [contradiction|reflexivity].
  - apply H2. intros O. apply DeriveProofs.contains_occurs in O. congruence.
Qed.
Lemma follows_none {A} (ref : A -> option string) self step ctx l : follows ref self step ctx None l -> l = [].
Proof. inversion 1; reflexivity. Qed.

Lemma Forall2_nth {A B} (R : A -> B -> Prop) l l' : List.length l = List.length l' ->
  (forall k a b, nth_error l k = Some a -> nth_error l' k = Some b -> R a b) -> Forall2 R l l'.
Proof.
  revert l'; induction l as [|a l IH]; intros [|b l'] L H; try discriminate; constructor.
  - apply (H O); reflexivity.
  - apply IH; [now injection L|]. intros k x y. apply (H (S k)).
Qed.
Lemma agrees_sum m bound a x : bound <> 0 -> sum_is m bound a x -> agrees m bound a x.
Proof. intros B [-> E]. split; [now apply N.mod_mod|exact E]. Qed.
Lemma agrees_add m bound a b x y z : bound <> 0 -> agrees m bound a x -> agrees m bound b y ->
  sum_is m bound (x + y) z -> agrees m bound (b + a) z.
Proof.
  intros B [Ea Da] [Eb Db] [-> D]. split.
  - rewrite N.mod_mod by exact B. rewrite (N.add_mod x y), (N.add_mod b a), Ea, Eb, N.add_comm by exact B. reflexivity.
  - intros Em. rewrite (D Em), (Da Em), (Db Em). lia.
Qed.

Lemma instances_spots {A} m bound (one : A -> dim_element -> N -> A -> Prop) name place x l :
  bound <> 0 ->
  (forall i d k y, one i d k y -> exists idx, index_text d k idx /\ name_of_instance d (name i) idx (name y) /\
     sum_is m bound (place i + k * de_increment d) (place y)) ->
  instances_of one x l -> exists ss, spots name place x ss /\
    Forall2 (fun s y => name y = fst s /\ agrees m bound (snd s) (place y)) ss l.
Proof.
  intros B H. destruct x as [i|i d]; cbn [instances_of spots].
  - intros ->. exists [(name i, place i)]. split; [reflexivity|]. repeat constructor.
  - intros [L E].
    assert (X : forall l s, exists sp, List.length sp = List.length l /\ forall k y, nth_error l k = Some y ->
              nth_error sp k = Some (name y, place i + N.of_nat (s + k) * de_increment d)).
    { clear. intros l; induction l as [|y l IH]; intros s.
      - exists []. split; [reflexivity|]. intros [|k]; discriminate.
      - destruct (IH (S s)) as (sp & Ls & Hs). exists ((name y, place i + N.of_nat s * de_increment d) :: sp).
        split; [cbn; lia|]. intros [|k] z; cbn [nth_error].
        + intros [= <-]. rewrite Nat.add_0_r. reflexivity.
        + intros Hz. rewrite (Hs k z Hz). replace (s + S k)%nat with (S s + k)%nat by lia. reflexivity. }
    destruct (X l O) as (ss & Ls & Hs). exists ss.
    assert (Y : forall k y, nth_error l k = Some y -> one i d (N.of_nat k) y).
    { intros k y Hy. assert (Hk : N.of_nat k < de_dim d).
      { unfold len_N in L. assert (k < List.length l)%nat by (apply nth_error_Some; congruence). lia. }
      destruct (E _ Hk) as (z & Hz & O). unfold nth_N in Hz. rewrite Nat2N.id, Hy in Hz. now injection Hz as <-. }
    conjs.
    + unfold len_N in *. rewrite Ls. exact L.
    + intros k Hk. destruct (E k Hk) as (y & Hy & O). destruct (H _ _ _ _ O) as (idx & Hi & Hn & _).
      exists idx, (name y). conjs; auto. unfold nth_N in *. rewrite (Hs _ _ Hy), Nat.add_0_l, N2Nat.id. reflexivity.
    + apply Forall2_nth; [exact Ls|]. intros k s y Ks Ky. rewrite (Hs _ _ Ky), Nat.add_0_l in Ks. injection Ks as <-. cbn [fst snd].
      destruct (H _ _ _ _ (Y k y Ky)) as (idx & _ & _ & S). split; [reflexivity|]. apply agrees_sum; assumption.
Qed.

Lemma mapped_same {A} (f : A -> A) (x y : maybe_array A) : dims y = dims x -> info (mapped f y) = f (info y) /\ dims (mapped f y) = dims x.
Proof. destruct x, y; cbn; auto. Qed.
Lemma spots_ext {A} (name : A -> string) (place : A -> N) x y l : dims y = dims x ->
  name (info y) = name (info x) -> place (info y) = place (info x) -> spots name place y l -> spots name place x l.
Proof.
  destruct x as [i|i e], y as [j|j e']; cbn; intros D E1 E2; try discriminate.
  - now rewrite E1, E2.
  - injection D as ->. rewrite E1, E2. auto.
Qed.

Section Flat.
  Variables (m : mode) (d : device).
  Notation plain := (fun i => RCRegister (Single i)).
  Lemma p32 : 2 ^ 32 <> 0. Proof. discriminate. Qed.

  Lemma field_layout ctx f out : underived_field f -> field_expanded m d ctx f out ->
    exists ss, spots f_name (fun i => br_offset (f_bit_range i)) f ss /\
      Forall2 (fun s i => f_name i = fst s /\ agrees m (2 ^ 32) (snd s) (br_offset (f_bit_range i))) ss out.
  Proof.
    intros [D V] (chain & f1 & ctx' & evs & F & G & _ & _ & I). rewrite D in F. apply follows_none in F as ->.
    destruct G as (G0 & G1 & G2 & _). apply nearest_dims_none in G0.
    apply (instances_spots m (2 ^ 32) _ f_name (fun i => br_offset (f_bit_range i))) in I as (ss & S & A).
    - exists ss. split; [|exact A]. destruct (mapped_same (fun i => field_with i evs) f f1 G0) as [Mi Md].
      eapply spots_ext; [exact Md| | |exact S]; cbv beta; rewrite Mi; [exact G1|]. cbn. now rewrite G2.
    - exact p32.
    - intros i e k y (idx & H1 & H2 & _ & H3 & _). eauto.
  Qed.
  Lemma fields_layout ctx fs groups : Forall underived_field fs -> Forall2 (field_expanded m d ctx) fs groups ->
    exists l, field_spots fs l /\
      Forall2 (fun s i => f_name i = fst s /\ agrees m (2 ^ 32) (snd s) (br_offset (f_bit_range i))) l (List.concat groups).
  Proof.
    intros U F. induction F as [|f out fs groups E F IH].
    - exists []. split; [exists []; auto|constructor].
    - inversion U as [|? ? Uf Us]; subst. destruct (IH Us) as (l & (ls & Fl & ->) & A).
      destruct (field_layout _ _ _ Uf E) as (ss & S & As). exists (ss ++ List.concat ls). split.
      + exists (ss :: ls). split; [constructor; assumption|reflexivity].
      + cbn [List.concat]. apply Forall2_app; assumption.
  Qed.
  Lemma register_layout ctx r out : r_derived_from (info r) = None ->
    Forall underived_field (or_empty (r_fields (info r))) -> register_expanded m d ctx r out ->
    exists ss, spots r_name r_address_offset r ss /\
      Forall2 (at_spot m) (map (fun s => Spot [fst s] (snd s) r) ss) out.
  Proof.
    intros D U (chain & r1 & ctx' & fs & F & G & _ & Hf & I). rewrite D in F. apply follows_none in F as ->.
    destruct G as (G0 & G1 & G2 & G3 & G4 & G5 & G6 & G7 & G8 & G9 & G10 & G11 & G12 & G13).
    apply nearest_dims_none in G0. cbn [paths map] in *. cbv zeta in *.
    apply nearest_props_one in G8. apply nearest_one in G9, G10, G11, G12, G13.
    rewrite G13 in Hf.
    destruct (mapped_same (fun i => register_with i fs) r r1 G0) as [Mi Md].
    pose proof I as I'.
    apply (instances_spots m (2 ^ 32) _ r_name r_address_offset) in I as (ss & S & A).
    - exists ss. split.
      + eapply spots_ext; [exact Md| | |exact S]; cbv beta; rewrite Mi; [exact G1|exact G5].
      + assert (X : Forall (fun y => r_alternate_group y = r_alternate_group (info r) /\
            r_alternate_register y = r_alternate_register (info r) /\
            r_properties y = r_properties (info r) /\ r_datatype y = r_datatype (info r) /\ r_mwv y = r_mwv (info r) /\
            r_write_constraint y = r_write_constraint (info r) /\ r_read_action y = r_read_action (info r) /\
            r_fields y = fs) out).
        { destruct r1 as [i|i e]; cbn [mapped instances_of info] in *.
          - subst out. repeat constructor; cbn; assumption.
          - destruct I' as [L I']. apply Forall_forall. intros y Iy. apply In_nth_error in Iy as [k Hk].
            assert (Lk : N.of_nat k < de_dim e).
            { unfold len_N in L. assert (k < List.length out)%nat by (apply nth_error_Some; congruence). lia. }
            destruct (I' _ Lk) as (z & Hz & O). unfold nth_N in Hz. rewrite Nat2N.id, Hk in Hz. injection Hz as <-.
            destruct O as (idx & _ & _ & _ & _ & _ & O1 & O2 & O3 & O4 & O5 & O6 & O7 & O8 & _). cbn in *.
            conjs; congruence. }
        clear I' S. induction A as [|s y ss out [A1 A2] A IH]; cbn [map]; constructor.
        * inversion X as [|? ? (X1 & X2 & X3 & X4 & X5 & X6 & X7 & X8) _]; subst.
          unfold at_spot. cbn [s_register s_names s_offset glue]. cbv zeta. conjs; try assumption.
          destruct (r_fields (info r)) as [l|].
          -- destruct Hf as (groups & Fg & E). destruct (fields_layout _ _ _ U Fg) as (sp & Sp & Ap).
             exists sp, (List.concat groups). rewrite E. auto.
          -- exact Hf.
        * apply IH. now inversion X.
    - exact p32.
    - intros i e k y (idx & H1 & H2 & _ & _ & H3 & _). eauto.
  Qed.
  Lemma hoist_spot n o off s x y : at_spot m s x -> s_names s <> [] -> agrees m (2 ^ 32) o off ->
    hoisted m n off x y -> at_spot m (Spot (n :: s_names s) (o + s_offset s) (s_register s)) y.
  Proof.
    intros (A1 & A2 & A3 & A4 & A5 & A6 & A7 & A8 & A9 & A10) Ne Ho (H1 & H2 & H3 & H4 & H5 & H6 & H7 & H8 & H9 & H10 & H11 & H12 & H13).
    unfold at_spot. cbn [s_register s_names s_offset]. cbv zeta in *. conjs; try congruence.
    - rewrite H1, A1, glue_cons by exact Ne. reflexivity.
    - eapply agrees_add; [exact p32|exact A2|exact Ho|exact H2].
    - rewrite H12. exact A10.
  Qed.
  Lemma layout_names kids l : layout kids l -> Forall (fun s => s_names s <> []) l.
  Proof.
    induction 1 as [|r rest ss l S L IH|c rest ss sub l S L1 IH1 L IH]; [constructor| |]; apply Forall_app; split; auto.
    - apply Forall_forall. intros s I. apply in_map_iff in I as (x & <- & _). discriminate.
    - apply Forall_forall. intros s I. apply in_flat_map in I as (x & _ & I). apply in_map_iff in I as (t & <- & _). discriminate.
  Qed.
  Lemma children_layout ctx kids groups :
    Forall (fun rc => forall ctx out, child_expanded m d ctx rc out ->
              exists l, layout [rc] l /\ Forall2 (at_spot m) l out) kids ->
    Forall2 (child_expanded m d ctx) kids groups ->
    exists l, layout kids l /\ Forall2 (at_spot m) l (List.concat groups).
  Proof.
    intros H F. induction F as [|rc out kids groups E F IH]; [exists []; split; constructor|].
    inversion H as [|? ? H1 H2]; subst. destruct (IH H2) as (l & L & A). destruct (H1 _ _ E) as (l0 & L0 & A0).
    exists (l0 ++ l). split; [|apply Forall2_app; assumption].
    inversion L0 as [|r rest ss l1 S L1|c rest ss sub l1 S Lc L1]; subst; inversion L1; subst; rewrite app_nil_r.
    - apply la_register; assumption.
    - apply la_cluster; assumption.
  Qed.
  Lemma child_layout rc : underived_child rc -> forall ctx out, child_expanded m d ctx rc out ->
    exists l, layout [rc] l /\ Forall2 (at_spot m) l out.
  Proof.
    induction rc as [r|c IH] using rc_tree_ind; intros U ctx out E.
    - inversion U as [? D Uf|]; subst. inversion E as [? ? ? R|]; subst.
      destruct (register_layout _ _ _ D Uf R) as (ss & S & A). eexists. split; [|exact A].
      replace (map _ ss) with (map (fun s => Spot [fst s] (snd s) r) ss ++ []) by apply app_nil_r.
      apply la_register; [exact S|constructor].
    - inversion U as [|? D Uc]; subst.
      inversion E as [|? ? chain c1 ctx' groups cs outs F G O Fg I Fo]; subst. clear E.
      change (follows_clusters d (c_name (info c)) ctx (c_derived_from (info c)) chain) in F.
      unfold follows_clusters in F. replace (c_derived_from (info c)) with (@None string) in F by (symmetry; exact D).
      apply follows_none in F as ->.
      destruct G as (G0 & G1 & _ & _ & G4 & _ & _ & _ & G8). apply nearest_dims_none in G0.
      cbn [paths map] in *. cbv zeta in *. apply nearest_list_one in G8. rewrite G8 in Fg.
      apply children_layout in Fg as (sub & Ls & As).
      2: { apply Forall_forall. intros x Ix. rewrite Forall_forall in IH, Uc. intros; eapply IH; eauto. }
      apply (instances_spots m (2 ^ 32) _ c_name c_address_offset) in I as (ss & S & A);
        [|exact p32|intros i e k y (idx & H1 & H2 & H3); eauto].
      assert (S' : spots c_name c_address_offset c ss)
        by (eapply spots_ext; [exact G0|exact G1|exact G4|exact S]).
      eexists. split.
      + apply la_cluster; [exact S'|exact Ls|constructor].
      + rewrite app_nil_r. clear S S' G0 G1 G4 G8 O.
        pose proof (layout_names _ _ Ls) as Nn. clear Ls.
        revert outs Fo. induction A as [|s k ss cs [A1 A2] A IHA]; intros outs Fo; inversion Fo as [|? out ? outs' Fk Fo']; subst.
        * constructor.
        * cbn [flat_map List.concat]. apply Forall2_app; [|apply IHA; exact Fo'].
          rewrite A1 in Fk. clear - Fk A2 As Nn. revert out Fk. induction As as [|t x sub xs At As IHs]; intros out Fk;
            inversion Fk as [|? y ? out' Hk Fk']; subst; cbn [map]; constructor.
          -- inversion Nn; subst. eapply hoist_spot; eauto.
          -- inversion Nn; subst. auto.
  Qed.
  Lemma peripheral_layout p out : underived_peripheral p -> peripheral_expanded m d p out -> flattened m p out.
  Proof.
    intros [D U] (chain & p1 & ctx' & rs & F & G & _ & Hr & I).
    rewrite D in F. apply follows_none in F as ->.
    destruct G as (G0 & G1 & G2 & G3 & G4 & G5 & _ & _ & _ & _ & _ & _ & _ & _ & _ & G15).
    apply nearest_dims_none in G0. cbn [paths map] in *. cbv zeta in *. apply nearest_one in G15. rewrite G15 in Hr.
    destruct (mapped_same (fun i => peripheral_with i rs) p p1 G0) as [Mi Md].
    assert (X : Forall (fun y => p_registers y = rs) out).
    { destruct p1 as [i|i e]; cbn [mapped instances_of info] in *.
      - subst out. repeat constructor.
      - destruct I as [L I]. apply Forall_forall. intros y Iy. apply In_nth_error in Iy as [k Hk].
        assert (Lk : N.of_nat k < de_dim e).
        { unfold len_N in L. assert (k < List.length out)%nat by (apply nth_error_Some; congruence). lia. }
        destruct (I _ Lk) as (z & Hz & O). unfold nth_N in Hz. rewrite Nat2N.id, Hk in Hz. injection Hz as <-.
        destruct O as (idx & O). repeat match goal with H : _ /\ _ |- _ => destruct H end. assumption. }
    apply (instances_spots m (2 ^ 64) _ p_name p_base_address) in I as (ss & S & A).
    - exists ss. split.
      + eapply spots_ext; [exact Md| | |exact S]; cbv beta; rewrite Mi; [exact G1|exact G4].
      + clear S Md Mi. induction A as [|s y ss out [A1 A2] A IH]; constructor.
        * inversion X as [|? ? X1 X2]; subst. conjs; auto.
          destruct (p_registers (info p)) as [kids|]; [|congruence]. destruct Hr as (groups & Fg & E).
          apply children_layout in Fg as (l & L & Al).
          -- exists l, (List.concat groups). conjs; auto.
          -- cbn [or_empty] in U. rewrite Forall_forall in U. apply Forall_forall. intros x Ix. apply child_layout. auto.
        * apply IH. now inversion X.
    - discriminate.
    - intros i e k y (idx & H1 & H2 & _ & _ & H3 & _). eauto.
  Qed.
End Flat.
Lemma device_layout m d d' : underived d -> device_expanded m d d' ->
  exists groups, d_peripherals d' = map Single (List.concat groups) /\ Forall2 (flattened m) (d_peripherals d) groups.
Proof.
  intros U (_ & groups & F & E). exists groups. split; [exact E|]. unfold underived in U. clear E.
  induction F as [|p out ps groups Fp F IH]; constructor.
  - inversion U; subst. eapply peripheral_layout; eauto.
  - apply IH. now inversion U.
Qed.
