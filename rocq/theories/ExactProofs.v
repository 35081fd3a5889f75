(** The meaning of expansion is single-valued on unambiguous devices, and reached. *)
From Verif Require Import Base BaseFacts Types TreeFacts BuilderProofs Derive DeriveProofs Arrays ArrayProofs IndexProofs InstanceProofs SpecArray SpecDerive SpecPath SpecExpand Expand PathProofs ExpandProofs PlaceProofs ChainProofs MeaningProofs SpecExact.

Lemma nth_error_ext' {A} : forall l l' : list A, (forall n, nth_error l n = nth_error l' n) -> l = l'.
Proof.
  induction l as [|a l IH]; intros [|b l'] H; [reflexivity|discriminate (H 0%nat)|discriminate (H 0%nat)|].
  f_equal; [now injection (H 0%nat)|]. apply IH. intros n. exact (H (S n)).
Qed.
(** ** Functionality of the pieces *)
Lemma nearest_fun {A B} (get : A -> option B) l : forall v v', nearest get l v -> nearest get l v' -> v = v'.
Proof.
  induction l as [|x l IH]; cbn [nearest]; intros v v'; [congruence|].
  intros [(b & E & ->)|(E & H)] [(b' & E' & ->)|(E' & H')]; try congruence. now apply IH.
Qed.
Lemma nearest_list_fun {A B} (get : A -> list B) l : forall v v', nearest_list get l v -> nearest_list get l v' -> v = v'.
Proof.
  induction l as [|x l IH]; cbn [nearest_list]; intros v v'; [congruence|].
  intros [(E & ->)|(E & H)] [(E' & ->)|(E' & H')]; try congruence. now apply IH.
Qed.
Lemma nearest_props_fun {A} (get : A -> reg_props) l v v' : nearest_props get l v -> nearest_props get l v' -> v = v'.
Proof.
  intros (A1 & A2 & A3 & A4 & A5) (B1 & B2 & B3 & B4 & B5). destruct v, v'; cbn in *.
  pose proof (nearest_fun _ _ _ _ A1 B1). pose proof (nearest_fun _ _ _ _ A2 B2).
  pose proof (nearest_fun _ _ _ _ A3 B3). pose proof (nearest_fun _ _ _ _ A4 B4).
  pose proof (nearest_fun _ _ _ _ A5 B5). congruence.
Qed.
Lemma ma_eq {A} (x y : maybe_array A) : dims x = dims y -> info x = info y -> x = y.
Proof. destruct x, y; cbn; congruence. Qed.
Lemma nearest_dims_fun {A} (name : A -> string) x chain (y y' : maybe_array A) :
  nearest_dims name x chain y -> nearest_dims name x chain y' -> dims y = dims y'.
Proof.
  unfold nearest_dims. destruct (dims x) as [e|]; [congruence|]. intros [H1 H2] [K1 K2].
  destruct (contains "%s" (name (info x))) eqn:C.
  - apply contains_occurs in C. destruct (H1 C) as (o & N & H), (K1 C) as (o' & N' & K).
    rewrite <- (nearest_fun _ _ _ _ N N') in K.
    destruct o as [e|], (dims y) as [[]|], (dims y') as [[]|]; try contradiction; [|reflexivity].
    cbn in *. destruct H as (? & ? & ? & ? & ?), K as (? & ? & ? & ? & ?). congruence.
  - assert (No : ~ occurs "%s" (name (info x))) by (intros O; apply contains_occurs in O; congruence).
    rewrite (H2 No), (K2 No). reflexivity.
Qed.
Ltac same := repeat match goal with
  | H : nearest ?g ?l ?v, K : nearest ?g ?l ?w |- _ => pose proof (nearest_fun _ _ _ _ H K); clear H K
  | H : nearest_list ?g ?l ?v, K : nearest_list ?g ?l ?w |- _ => pose proof (nearest_list_fun _ _ _ _ H K); clear H K
  | H : nearest_props ?g ?l ?v, K : nearest_props ?g ?l ?w |- _ => pose proof (nearest_props_fun _ _ _ _ H K); clear H K
  end.
Lemma values_from_fun x chain y y' : values_from x chain y -> values_from x chain y' -> y = y'.
Proof.
  intros (A1 & A2 & A3 & A4) (B1 & B2 & B3 & B4). same. destruct y, y'; cbn in *. subst. reflexivity.
Qed.
Lemma field_from_fun x chain y y' : field_from x chain y -> field_from x chain y' -> y = y'.
Proof.
  unfold field_from. cbv zeta. intros (A0 & A1 & A2 & A3 & A4 & A5 & A6 & A7 & A8 & A9) (B0 & B1 & B2 & B3 & B4 & B5 & B6 & B7 & B8 & B9).
  apply ma_eq; [exact (nearest_dims_fun _ _ _ _ _ A0 B0)|]. clear A0 B0. same.
  destruct (info y), (info y'); cbn in *. subst. reflexivity.
Qed.
Lemma register_from_fun x chain y y' : register_from x chain y -> register_from x chain y' -> y = y'.
Proof.
  unfold register_from. cbv zeta. intros (A0 & A1 & A2 & A3 & A4 & A5 & A6 & A7 & A8 & A9 & A10 & A11 & A12 & A13)
    (B0 & B1 & B2 & B3 & B4 & B5 & B6 & B7 & B8 & B9 & B10 & B11 & B12 & B13).
  apply ma_eq; [exact (nearest_dims_fun _ _ _ _ _ A0 B0)|]. clear A0 B0. same.
  destruct (info y), (info y'); cbn in *. subst. reflexivity.
Qed.
Lemma cluster_from_fun x chain y y' : cluster_from x chain y -> cluster_from x chain y' -> y = y'.
Proof.
  unfold cluster_from. cbv zeta. intros (A0 & A1 & A2 & A3 & A4 & A5 & A6 & A7 & A8)
    (B0 & B1 & B2 & B3 & B4 & B5 & B6 & B7 & B8).
  apply ma_eq; [exact (nearest_dims_fun _ _ _ _ _ A0 B0)|]. clear A0 B0. same.
  destruct (info y), (info y'); cbn in *. subst. reflexivity.
Qed.
Lemma peripheral_from_fun x chain y y' : peripheral_from x chain y -> peripheral_from x chain y' -> y = y'.
Proof.
  unfold peripheral_from. cbv zeta. intros (A0 & A1 & A2 & A3 & A4 & A5 & A6 & A7 & A8 & A9 & A10 & A11 & A12 & A13 & A14 & A15)
    (B0 & B1 & B2 & B3 & B4 & B5 & B6 & B7 & B8 & B9 & B10 & B11 & B12 & B13 & B14 & B15).
  apply ma_eq; [exact (nearest_dims_fun _ _ _ _ _ A0 B0)|]. clear A0 B0. same.
  destruct (info y), (info y'); cbn in *. subst. reflexivity.
Qed.
Lemma origin_fun {A} (empty : A -> Prop) x chain own p p' :
  origin empty x chain own p -> origin empty x chain own p' -> p = p'.
Proof.
  intros [(b & y & E & Ex & F)|(E & K)] [(b' & y' & E' & Ex' & F')|(E' & K')].
  - rewrite E in E'. apply app_inj_tail in E' as [_ E']. congruence.
  - exfalso. destruct K' as [K'|(b'' & l & K' & No)]; rewrite K' in E.
    + destruct b; discriminate.
    + apply app_inj_tail in E as [-> _]. auto.
  - exfalso. destruct K as [K|(b'' & l & K & No)]; rewrite K in E'.
    + destruct b'; discriminate.
    + apply app_inj_tail in E' as [-> _]. auto.
  - congruence.
Qed.
Lemma follows_fun {A} (ref : A -> option string) self (step : list string -> string -> list string -> A -> Prop) :
  (forall ctx s p x p' x', step ctx s p x -> step ctx s p' x' -> p = p' /\ x = x') ->
  forall ctx o l, follows ref self step ctx o l -> forall l', follows ref self step ctx o l' -> l = l'.
Proof.
  intros S ctx o l F. induction F as [ctx|ctx s p x l St Ns F IH]; intros l' F'; inversion F'; subst; [reflexivity|].
  match goal with H : step ctx s _ _ |- _ => destruct (S _ _ _ _ _ _ St H) as [-> ->] end.
  f_equal. now apply IH.
Qed.
Lemma resolves_fun ctx s p p' : resolves ctx s p -> resolves ctx s p' -> p = p'.
Proof.
  intros (l & C & H) (l' & C' & H'). apply cut_split in C as ->. apply cut_split in C' as ->.
  destruct H as [(n & E & ->)|(L & ->)], H' as [(n' & E' & ->)|(L' & ->)].
  - congruence.
  - rewrite E in L'. cbn in L'. lia.
  - rewrite E' in L. cbn in L. lia.
  - reflexivity.
Qed.
Lemma sum_is_fun m b a x y : sum_is m b a x -> sum_is m b a y -> x = y.
Proof. intros [-> _] [-> _]. reflexivity. Qed.
Lemma name_fun d t idx n n' : name_of_instance d t idx n -> name_of_instance d t idx n' -> n = n'.
Proof.
  intros [(e & E & ->)|(No & F)] [(e' & E' & ->)|(No' & F')].
  - now rewrite (entry_unique _ _ _ _ E E').
  - exfalso. exact (No' e E).
  - exfalso. exact (No e' E').
  - eapply filled_unique; eauto.
Qed.
Lemma template_fun idx t u u' : template_text idx t u -> template_text idx t u' -> u = u'.
Proof.
  destruct t as [s|]; cbn [template_text]; [|congruence].
  intros (r & -> & F) (r' & -> & F'). now rewrite (filled_unique _ _ _ _ F F').
Qed.
Lemma description_fun d t idx n n' : description_of_instance d t idx n -> description_of_instance d t idx n' -> n = n'.
Proof.
  intros [(e & t1 & E & Et & ->)|(No & F)] [(e' & t2 & E' & Et' & ->)|(No' & F')].
  - pose proof (entry_unique _ _ _ _ E E'). congruence.
  - exfalso. rewrite (No' e E) in Et. discriminate.
  - exfalso. rewrite (No e' E') in Et'. discriminate.
  - exact (template_fun idx t n n' F F').
Qed.
Lemma instances_fun {A} (one : A -> dim_element -> N -> A -> Prop) :
  (forall i d k y y', one i d k y -> one i d k y' -> y = y') ->
  forall x l l', instances_of one x l -> instances_of one x l' -> l = l'.
Proof.
  intros H [i|i d] l l'; cbn [instances_of]; [congruence|]. intros [L K] [L' K'].
  apply nth_error_ext'. intros n. unfold len_N in *.
  destruct (N.lt_ge_cases (N.of_nat n) (de_dim d)) as [Hn|Hn].
  - destruct (K _ Hn) as (y & E & O), (K' _ Hn) as (y' & E' & O'). unfold nth_N in *. rewrite Nnat.Nat2N.id in *.
    rewrite E, E', (H _ _ _ _ _ O O'). reflexivity.
  - rewrite (proj2 (nth_error_None _ _)), (proj2 (nth_error_None _ _)); [reflexivity| |]; clear - L L' Hn; lia.
Qed.
Ltac idx_same := match goal with
  | H : index_text ?d ?k ?i, K : index_text ?d ?k ?j |- _ => pose proof (index_text_fun _ _ _ _ H K); subst; clear H
  end; repeat match goal with
  | H : name_of_instance ?d ?t ?i ?n, K : name_of_instance ?d ?t ?i ?n' |- _ => pose proof (name_fun _ _ _ _ _ H K); clear H K
  | H : description_of_instance ?d ?t ?i ?n, K : description_of_instance ?d ?t ?i ?n' |- _ => pose proof (description_fun _ _ _ _ _ H K); clear H K
  | H : template_text ?i ?t ?n, K : template_text ?i ?t ?n' |- _ => pose proof (template_fun _ _ _ _ H K); clear H K
  | H : sum_is ?m ?b ?t ?n, K : sum_is ?m ?b ?t ?n' |- _ => pose proof (sum_is_fun _ _ _ _ _ H K); clear H K
  end.
Lemma field_instance_fun m i d k y y' : field_instance_of m i d k y -> field_instance_of m i d k y' -> y = y'.
Proof.
  intros (j & A0 & A1 & A2 & A3 & A4 & A5 & A6 & A7 & A8 & A9 & A10 & A11) (j' & B0 & B1 & B2 & B3 & B4 & B5 & B6 & B7 & B8 & B9 & B10 & B11).
  idx_same. destruct y as [? ? [] ? ? ? ? ? ?], y' as [? ? [] ? ? ? ? ? ?]; cbn in *. subst. reflexivity.
Qed.
Lemma register_instance_fun m i d k y y' : register_instance_of m i d k y -> register_instance_of m i d k y' -> y = y'.
Proof.
  intros (j & A0 & A1 & A2 & A3 & A4 & A5 & A6 & A7 & A8 & A9 & A10 & A11 & A12 & A13)
    (j' & B0 & B1 & B2 & B3 & B4 & B5 & B6 & B7 & B8 & B9 & B10 & B11 & B12 & B13).
  idx_same. destruct y, y'; cbn in *. subst. reflexivity.
Qed.
Lemma peripheral_instance_fun m i d k y y' : peripheral_instance_of m i d k y -> peripheral_instance_of m i d k y' -> y = y'.
Proof.
  intros (j & A0 & A1 & A2 & A3 & A4 & A5 & A6 & A7 & A8 & A9 & A10 & A11 & A12 & A13 & A14 & A15)
    (j' & B0 & B1 & B2 & B3 & B4 & B5 & B6 & B7 & B8 & B9 & B10 & B11 & B12 & B13 & B14 & B15).
  idx_same. destruct y, y'; cbn in *. subst. reflexivity.
Qed.
(** Of the instances of a cluster only name and address matter. *)
Definition spot (c : cluster_info) : string * N := (c_name c, c_address_offset c).
Lemma cluster_instances_fun m x l l' : instances_of (cluster_instance_of m) x l -> instances_of (cluster_instance_of m) x l' ->
  map spot l = map spot l'.
Proof.
  destruct x as [i|i d]; cbn [instances_of]; [congruence|]. intros [L K] [L' K'].
  apply nth_error_ext'. intros n. rewrite !nth_error_map. unfold len_N in *.
  destruct (N.lt_ge_cases (N.of_nat n) (de_dim d)) as [Hn|Hn].
  - destruct (K _ Hn) as (y & E & j & A0 & A1 & A2), (K' _ Hn) as (y' & E' & j' & B0 & B1 & B2).
    unfold nth_N in *. rewrite Nnat.Nat2N.id in *. rewrite E, E'. cbn. idx_same. unfold spot. congruence.
  - rewrite (proj2 (nth_error_None l _)), (proj2 (nth_error_None l' _)); [reflexivity| |]; clear - L L' Hn; lia.
Qed.
Lemma hoisted_fun m n off x y y' : hoisted m n off x y -> hoisted m n off x y' -> y = y'.
Proof.
  intros (A1 & A2 & A3 & A4 & A5 & A6 & A7 & A8 & A9 & A10 & A11 & A12 & A13)
    (B1 & B2 & B3 & B4 & B5 & B6 & B7 & B8 & B9 & B10 & B11 & B12 & B13).
  pose proof (sum_is_fun _ _ _ _ _ A2 B2). destruct y, y'; cbn in *. subst. reflexivity.
Qed.
Lemma forall2_fun {A B} (R : A -> B -> Prop) l : Forall (fun a => forall b b', R a b -> R a b' -> b = b') l ->
  forall m m', Forall2 R l m -> Forall2 R l m' -> m = m'.
Proof.
  induction 1 as [|a l H F IH]; intros m m' K K'; inversion K; inversion K'; subst; [reflexivity|].
  f_equal; auto.
Qed.
Lemma forall2_fun' {A B} (R : A -> B -> Prop) l : (forall a b b', R a b -> R a b' -> b = b') ->
  forall m m', Forall2 R l m -> Forall2 R l m' -> m = m'.
Proof. intros H. apply forall2_fun, Forall_forall. intros a _. apply H. Qed.

Section Unique.
  Variables (m : mode) (d : device).
  Hypothesis U : unambiguous d.
  Lemma step_peripherals : forall (ctx : list string) s path p path' p',
    path = [s] /\ peripheral_placed d path p -> path' = [s] /\ peripheral_placed d path' p' -> path = path' /\ p = p'.
  Proof using U. intros _ s path p path' p' [-> H] [-> H']. split; [reflexivity|]. eapply un_peripherals; eauto. Qed.
  Ltac step un := intros ctx s path p path' p' [R H] [R' H']; rewrite <- (resolves_fun _ _ _ _ R R') in *;
    split; [reflexivity|]; eapply un; eauto.
  Lemma step_clusters : forall ctx s path p path' p',
    resolves ctx s path /\ cluster_placed d path p -> resolves ctx s path' /\ cluster_placed d path' p' -> path = path' /\ p = p'.
  Proof using U. step un_clusters. Qed.
  Lemma step_registers : forall ctx s path p path' p',
    resolves ctx s path /\ register_placed d path p -> resolves ctx s path' /\ register_placed d path' p' -> path = path' /\ p = p'.
  Proof using U. step un_registers. Qed.
  Lemma step_fields : forall ctx s path p path' p',
    resolves ctx s path /\ field_placed d path p -> resolves ctx s path' /\ field_placed d path' p' -> path = path' /\ p = p'.
  Proof using U. step un_fields. Qed.
  Lemma step_values : forall ctx s path p path' p',
    resolves_values d ctx s path /\ values_placed d path p -> resolves_values d ctx s path' /\ values_placed d path' p' ->
    path = path' /\ p = p'.
  Proof using U.
    intros ctx s path p path' p' [(l & C & R) H] [(l' & C' & R') H'].
    apply cut_split in C as ->. apply cut_split in C' as ->.
    assert (E : path = path').
    { cbv zeta in *. destruct (split "." s) as [|a [|b [|c [|e l]]]]; try congruence.
      destruct R as (r & f & Rr & If & ->), R' as (r' & f' & Rr' & If' & ->).
      rewrite <- (un_registers d U _ _ _ Rr Rr') in *.
      now rewrite (un_names d U _ _ _ _ _ _ _ Rr If If' H H'). }
    subst path'. split; [reflexivity|]. eapply un_values; eauto.
  Qed.
  Lemma values_expanded_fun ctx e a b : values_expanded d ctx e a -> values_expanded d ctx e b -> a = b.
  Proof using U.
    intros (c & F & V) (c' & F' & V'). rewrite <- (follows_fun _ _ _ step_values _ _ _ F _ F') in V'.
    eapply values_from_fun; eauto.
  Qed.
  Lemma field_expanded_fun ctx f a b : field_expanded m d ctx f a -> field_expanded m d ctx f b -> a = b.
  Proof using U.
    intros (c & f1 & x & evs & F & V & O & K & I) (c' & f1' & x' & evs' & F' & V' & O' & K' & I').
    rewrite <- (follows_fun _ _ _ step_fields _ _ _ F _ F') in *.
    rewrite <- (field_from_fun _ _ _ _ V V') in *. rewrite <- (origin_fun _ _ _ _ _ _ O O') in *.
    rewrite <- (forall2_fun' _ _ (values_expanded_fun _) _ _ K K') in *.
    eapply instances_fun; [apply field_instance_fun|exact I|exact I'].
  Qed.
  Lemma register_expanded_fun ctx r a b : register_expanded m d ctx r a -> register_expanded m d ctx r b -> a = b.
  Proof using U.
    intros (c & f1 & x & fs & F & V & O & K & I) (c' & f1' & x' & fs' & F' & V' & O' & K' & I').
    rewrite <- (follows_fun _ _ _ step_registers _ _ _ F _ F') in *.
    rewrite <- (register_from_fun _ _ _ _ V V') in *. rewrite <- (origin_fun _ _ _ _ _ _ O O') in *.
    assert (E : fs = fs').
    { destruct (r_fields (info f1)); [|congruence]. destruct K as (g & K & ->), K' as (g' & K' & ->).
      now rewrite (forall2_fun' _ _ (field_expanded_fun _) _ _ K K'). }
    subst fs'. eapply instances_fun; [apply register_instance_fun|exact I|exact I'].
  Qed.
  Lemma hoists_fun regs cs : forall outs, Forall2 (fun k out => Forall2 (hoisted m (c_name k) (c_address_offset k)) regs out) cs outs ->
    forall cs' outs', map spot cs = map spot cs' ->
    Forall2 (fun k out => Forall2 (hoisted m (c_name k) (c_address_offset k)) regs out) cs' outs' -> outs = outs'.
  Proof.
    intros outs H. induction H as [|k o cs outs Ho H IH]; intros cs' outs' E K; destruct cs' as [|k' cs']; try discriminate;
      inversion K as [|k1 o1 cs1 outs1 Ho1 K1]; subst; [reflexivity|].
    injection E as E1 E2 E. rewrite <- E1, <- E2 in Ho1. f_equal; [|eapply IH; eauto].
    eapply forall2_fun'; [|exact Ho|exact Ho1]. apply hoisted_fun.
  Qed.
  Section ChildInd.
    Variable P : list string -> register_cluster -> list register_info -> Prop.
    Hypothesis Pr : forall ctx r out, register_expanded m d ctx r out -> P ctx (RCRegister r) out.
    Hypothesis Pc : forall ctx c chain c1 ctx' groups cs outs,
        follows_clusters d (c_name (info c)) ctx (c_derived_from (info c)) chain ->
        cluster_from c (paths chain) c1 ->
        origin (fun x : cluster => c_children (info x) = []) c chain (ctx ++ [c_name (info c)]) ctx' ->
        Forall2 (child_expanded m d ctx') (c_children (info c1)) groups ->
        Forall2 (P ctx') (c_children (info c1)) groups ->
        instances_of (cluster_instance_of m) c1 cs ->
        Forall2 (fun k out => Forall2 (hoisted m (c_name k) (c_address_offset k)) (List.concat groups) out) cs outs ->
        P ctx (RCCluster c) (List.concat outs).
    Fixpoint child_ind ctx rc out (H : child_expanded m d ctx rc out) : P ctx rc out :=
      match H with
      | ce_register _ _ ctx r out K => Pr ctx r out K
      | ce_cluster _ _ ctx c chain c1 ctx' groups cs outs H1 H2 H3 H4 H5 H6 =>
          Pc ctx c chain c1 ctx' groups cs outs H1 H2 H3 H4
            ((fix go l l' (F : Forall2 (child_expanded m d ctx') l l') : Forall2 (P ctx') l l' :=
                match F with
                | Forall2_nil _ => Forall2_nil _
                | Forall2_cons _ _ h t => Forall2_cons _ _ (child_ind _ _ _ h) (go _ _ t)
                end) _ _ H4) H5 H6
      end.
  End ChildInd.
  Lemma forall2_both {A B} (R : A -> B -> Prop) l a : Forall2 (fun x y => forall y', R x y' -> y = y') l a ->
    forall b, Forall2 R l b -> a = b.
  Proof.
    induction 1; intros b K; inversion K; subst; [reflexivity|]. f_equal; auto.
  Qed.
  Lemma child_expanded_fun ctx rc a : child_expanded m d ctx rc a -> forall b, child_expanded m d ctx rc b -> a = b.
  Proof using U.
    intros H. refine (child_ind (fun ctx rc a => forall b, child_expanded m d ctx rc b -> a = b) _ _ ctx rc a H); clear ctx rc a H.
    - intros ctx r out H b H'. inversion H'; subst. eapply register_expanded_fun; eauto.
    - intros ctx c chain c1 ctx' groups cs outs F V O _ IH I K b H'. inversion H' as [|? ? chain' c1' ctx'' groups' cs' outs' F' V' O' G' I' K']; subst.
      rewrite <- (follows_fun _ _ _ step_clusters _ _ _ F _ F') in *.
      rewrite <- (cluster_from_fun _ _ _ _ V V') in *. rewrite <- (origin_fun _ _ _ _ _ _ O O') in *.
      rewrite <- (forall2_both _ _ _ IH _ G') in *.
      f_equal. eapply hoists_fun; [exact K| |exact K']. eapply cluster_instances_fun; eauto.
  Qed.
  Lemma peripheral_expanded_fun p a b : peripheral_expanded m d p a -> peripheral_expanded m d p b -> a = b.
  Proof using U.
    intros (c & f1 & x & fs & F & V & O & K & I) (c' & f1' & x' & fs' & F' & V' & O' & K' & I').
    rewrite <- (follows_fun _ _ _ step_peripherals _ _ _ F _ F') in *.
    rewrite <- (peripheral_from_fun _ _ _ _ V V') in *. rewrite <- (origin_fun _ _ _ _ _ _ O O') in *.
    assert (E : fs = fs').
    { destruct (p_registers (info f1)); [|congruence]. destruct K as (g & K & ->), K' as (g' & K' & ->).
      rewrite (forall2_fun' _ _ (fun rc a b H => child_expanded_fun x rc a H b) _ _ K K'). reflexivity. }
    subst fs'. eapply instances_fun; [apply peripheral_instance_fun|exact I|exact I'].
  Qed.
  Lemma device_expanded_fun d1 d2 : device_expanded m d d1 -> device_expanded m d d2 -> d1 = d2.
  Proof using U.
    intros [S (g & K & E)] [S' (g' & K' & E')]. rewrite <- (forall2_fun' _ _ peripheral_expanded_fun _ _ K K') in E'.
    unfold same_but_peripherals in *. destruct d1, d2; cbn in *.
    repeat match goal with H : _ /\ _ |- _ => destruct H end. subst. reflexivity.
  Qed.
End Unique.
