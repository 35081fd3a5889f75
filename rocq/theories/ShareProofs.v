(** Elements that take their content from another. *)
From Verif Require Import Base BaseFacts TreeFacts Types Expand SpecArray SpecDerive SpecExpand SpecExact SpecShare ExactProofs MeaningProofs.

Lemma follows_last {A} (ref : A -> option string) self step ctx o before path x :
  follows ref self step ctx o (before ++ [(path, x)]) -> ref x = None.
Proof.
  revert ctx o. induction before as [|[p y] before IH]; intros ctx o H; cbn in H; inversion H as [|? ? ? ? ? S N F]; subst.
  - inversion F; congruence.
  - now apply IH in F.
Qed.
Lemma follows_none {A} (ref : A -> option string) self step ctx l : follows ref self step ctx None l -> l = [].
Proof. now inversion 1. Qed.
Lemma nearest_end {A B} (get : A -> option B) l x v : Forall (fun y => get y = None) l -> nearest get (l ++ [x]) v -> v = get x.
Proof.
  induction 1 as [|y l E F IH]; cbn; intros [(b & H & K)|[H K]]; subst; try congruence. auto.
Qed.
Lemma nearest_list_end {A B} (get : A -> list B) l x v : Forall (fun y => get y = []) l -> nearest_list get (l ++ [x]) v -> v = get x.
Proof.
  induction 1 as [|y l E F IH]; cbn; intros [[H K]|[H K]]; subst; try congruence. auto.
Qed.
Lemma origin_end {A} (empty : A -> Prop) x before path y own p : empty x -> Forall (fun q => empty (snd q)) before ->
  origin empty x (before ++ [(path, y)]) own p -> p = path.
Proof.
  intros E F [(b & z & H & _ & _)|[_ [H|(b & z & H & N)]]].
  - apply app_inj_tail in H as [_ H]. congruence.
  - destruct before; discriminate.
  - exfalso. apply app_inj_tail in H as [-> _]. auto.
Qed.
Lemma origin_own {A} (empty : A -> Prop) x own p : origin empty x [] own p -> p = own.
Proof. intros [(b & z & H & _)|[H _]]; [destruct b; discriminate|exact H]. Qed.

Lemma nth_of {A} (l : list A) y : In y l -> exists k, k < len_N l /\ nth_N l k = Some y.
Proof.
  intros I. apply In_nth_error in I as [k E]. exists (N.of_nat k). unfold len_N, nth_N. rewrite Nat2N.id. split; [|exact E].
  assert (k < List.length l)%nat by (apply nth_error_Some; congruence). lia.
Qed.
Lemma instances_all {A B} (one : A -> dim_element -> N -> A -> Prop) (get : A -> B) x l :
  (forall i d k y, one i d k y -> get y = get i) -> instances_of one x l -> Forall (fun y => get y = get (info x)) l.
Proof.
  intros H. destruct x as [i|i d]; cbn; [intros ->; now constructor|]. intros [L K]. apply Forall_forall. intros y I.
  destruct (nth_of l y I) as (k & Lk & E). rewrite L in Lk. destruct (K k Lk) as (z & E' & O). rewrite E in E'. injection E' as <-. eauto.
Qed.

Section Share.
  Variables (m : mode) (d : device).
  Hypothesis U : unambiguous d.
  Lemma shared_registers p q ps qs : peripheral_source d p q -> peripheral_expanded m d p ps -> peripheral_expanded m d q qs ->
    exists rs, Forall (fun y => p_registers y = rs) (ps ++ qs) /\ (rs = None <-> p_registers (info q) = None).
  Proof using U.
    intros (before & F & E & B) (c & p1 & x & rs & F1 & V1 & O1 & K1 & I1) (c' & q1 & x' & rs' & F2 & V2 & O2 & K2 & I2).
    pose proof (follows_last _ _ _ _ _ _ _ _ F) as L. cbn beta in L. rewrite L in F2. apply follows_none in F2. subst c'.
    rewrite (follows_fun _ _ _ (step_peripherals d U) _ _ _ F1 _ F) in *. clear F1.
    apply (origin_end (fun x => p_registers (info x) = None)) in O1; [|exact E|exact B]. apply origin_own in O2. subst x x'.
    destruct V1 as (_ & _ & _ & _ & _ & _ & _ & _ & _ & _ & _ & _ & _ & _ & _ & N1).
    destruct V2 as (_ & _ & _ & _ & _ & _ & _ & _ & _ & _ & _ & _ & _ & _ & _ & N2).
    unfold paths in N1, N2. rewrite map_app in N1. cbn [map snd] in N1, N2. rewrite map_app in N1. cbn [map] in N1.
    apply (nearest_end p_registers (info p :: map info (map snd before)) (info q)) in N1.
    2:{ constructor; [exact E|]. rewrite map_map. apply Forall_map. exact B. }
    apply (nearest_end p_registers [] (info q)) in N2; [|constructor]. rewrite N1 in K1. rewrite N2 in K2.
    assert (R : rs = rs').
    { destruct (p_registers (info q)); [|congruence]. destruct K1 as (g & K1 & ->), K2 as (g' & K2 & ->).
      rewrite (forall2_fun' _ _ (fun rc a b H => child_expanded_fun m d U _ rc a H b) _ _ K1 K2). reflexivity. }
    subst rs'. exists rs. split.
    2:{ destruct (p_registers (info q)); [|now split]. destruct K1 as (g & _ & ->). now split. }
    apply Forall_app. split.
    - apply (instances_all _ p_registers) in I1; [destruct p1; exact I1|]. intros i e k y O. destruct O as (idx & O). apply O.
    - apply (instances_all _ p_registers) in I2; [destruct q1; exact I2|]. intros i e k y O. destruct O as (idx & O). apply O.
  Qed.
  Lemma shared_fields ctx r at_q q rs qs : register_source d ctx r at_q q -> register_expanded m d ctx r rs -> register_expanded m d at_q q qs ->
    exists fs, Forall (fun y => r_fields y = fs) (rs ++ qs).
  Proof using U.
    intros (before & F & E & B) (c & p1 & x & fs & F1 & V1 & O1 & K1 & I1) (c' & q1 & x' & fs' & F2 & V2 & O2 & K2 & I2).
    pose proof (follows_last _ _ _ _ _ _ _ _ F) as L. cbn beta in L. rewrite L in F2. apply follows_none in F2. subst c'.
    rewrite (follows_fun _ _ _ (step_registers d U) _ _ _ F1 _ F) in *. clear F1.
    apply (origin_end (fun x => r_fields (info x) = None)) in O1; [|exact E|exact B]. apply origin_own in O2. subst x x'.
    destruct V1 as (_ & _ & _ & _ & _ & _ & _ & _ & _ & _ & _ & _ & _ & N1).
    destruct V2 as (_ & _ & _ & _ & _ & _ & _ & _ & _ & _ & _ & _ & _ & N2).
    unfold paths in N1, N2. rewrite map_app in N1. cbn [map snd] in N1, N2. rewrite map_app in N1. cbn [map] in N1.
    apply (nearest_end r_fields (info r :: map info (map snd before)) (info q)) in N1.
    2:{ constructor; [exact E|]. rewrite map_map. apply Forall_map. exact B. }
    apply (nearest_end r_fields [] (info q)) in N2; [|constructor]. rewrite N1 in K1. rewrite N2 in K2.
    assert (R : fs = fs').
    { destruct (r_fields (info q)); [|congruence]. destruct K1 as (g & K1 & ->), K2 as (g' & K2 & ->).
      now rewrite (forall2_fun' _ _ (field_expanded_fun m d U _) _ _ K1 K2). }
    subst fs'. exists fs. apply Forall_app. split.
    - apply (instances_all _ r_fields) in I1; [destruct p1; exact I1|]. intros i e k y O. destruct O as (idx & O). apply O.
    - apply (instances_all _ r_fields) in I2; [destruct q1; exact I2|]. intros i e k y O. destruct O as (idx & O). apply O.
  Qed.
  Lemma shared_values ctx f at_q q fs qs : field_source d ctx f at_q q -> field_expanded m d ctx f fs -> field_expanded m d at_q q qs ->
    exists evs, Forall (fun y => f_enumerated_values y = evs) (fs ++ qs).
  Proof using U.
    intros (before & F & E & B) (c & p1 & x & es & F1 & V1 & O1 & K1 & I1) (c' & q1 & x' & es' & F2 & V2 & O2 & K2 & I2).
    pose proof (follows_last _ _ _ _ _ _ _ _ F) as L. cbn beta in L. rewrite L in F2. apply follows_none in F2. subst c'.
    rewrite (follows_fun _ _ _ (step_fields d U) _ _ _ F1 _ F) in *. clear F1.
    apply (origin_end (fun x => f_enumerated_values (info x) = [])) in O1; [|exact E|exact B]. apply origin_own in O2. subst x x'.
    destruct V1 as (_ & _ & _ & _ & _ & _ & _ & _ & _ & N1).
    destruct V2 as (_ & _ & _ & _ & _ & _ & _ & _ & _ & N2).
    unfold paths in N1, N2. rewrite map_app in N1. cbn [map snd] in N1, N2. rewrite map_app in N1. cbn [map] in N1.
    apply (nearest_list_end f_enumerated_values (info f :: map info (map snd before)) (info q)) in N1.
    2:{ constructor; [exact E|]. rewrite map_map. apply Forall_map. exact B. }
    apply (nearest_list_end f_enumerated_values [] (info q)) in N2; [|constructor]. rewrite N1 in K1. rewrite N2 in K2.
    rewrite <- (forall2_fun' _ _ (values_expanded_fun d U _) _ _ K1 K2) in *. exists es. apply Forall_app. split.
    - apply (instances_all _ f_enumerated_values) in I1; [destruct p1; exact I1|]. intros i e k y O. destruct O as (idx & O). apply O.
    - apply (instances_all _ f_enumerated_values) in I2; [destruct q1; exact I2|]. intros i e k y O. destruct O as (idx & O). apply O.
  Qed.
  (** Clusters: the same registers, seen from other places *)
  Lemma shared_children ctx (c : cluster) at_q (q : cluster) rs qs : cluster_source d ctx c at_q q ->
    child_expanded m d ctx (RCCluster c) rs -> child_expanded m d at_q (RCCluster q) qs ->
    exists regs, seen_from m c regs rs /\ seen_from m q regs qs.
  Proof using U.
    intros (before & F & E & B) H1 H2.
    inversion H1 as [|? ? ch c1 x groups cs outs F1 V1 O1 K1 I1 Ho1]; subst.
    inversion H2 as [|? ? ch' q1 x' groups' ks outs' F2 V2 O2 K2 I2 Ho2]; subst. clear H1 H2.
    pose proof (follows_last _ _ _ _ _ _ _ _ F) as L. cbn beta in L. change (follows_clusters d (c_name (info q)) at_q (c_derived_from (info q)) ch') in F2.
    unfold cluster_info, cluster in *. rewrite L in F2. apply follows_none in F2. subst ch'.
    rewrite (follows_fun _ _ _ (step_clusters d U) _ _ _ F1 _ F) in *. clear F1.
    apply (origin_end (fun x : cluster => c_children (info x) = [])) in O1; [|exact E|exact B]. apply origin_own in O2. subst x x'.
    destruct V1 as (_ & A1 & _ & _ & P1 & _ & _ & _ & N1).
    destruct V2 as (_ & A2 & _ & _ & P2 & _ & _ & _ & N2).
    unfold paths in N1, N2. rewrite map_app in N1. cbn [map snd] in N1, N2. rewrite map_app in N1. cbn [map] in N1.
    apply (nearest_list_end c_children (info c :: map info (map snd before)) (info q)) in N1.
    2:{ constructor; [exact E|]. rewrite map_map. apply Forall_map. exact B. }
    apply (nearest_list_end c_children [] (info q)) in N2; [|constructor].
    unfold cluster_info, cluster in *. rewrite N1 in K1. rewrite N2 in K2.
    rewrite <- (forall2_fun' _ _ (fun rc a b H => child_expanded_fun m d U _ rc a H b) _ _ K1 K2) in *.
    exists (List.concat groups). split; [exists c1, cs, outs|exists q1, ks, outs']; auto 8.
  Qed.
  Lemma single_source p ps : peripheral_expanded m d p ps -> dims p = None -> (p_derived_from (info p) = None \/ ~ occurs "%s" (p_name (info p))) ->
    exists y, ps = [y] /\ p_name y = p_name (info p).
  Proof using.
    intros (c & p1 & x & rs & F & V & _ & _ & I) D H. destruct V as (N & E & _). unfold nearest_dims in N. rewrite D in N. destruct N as [N1 N2].
    assert (S : dims p1 = None).
    { destruct H as [H|H]; [|exact (N2 H)]. rewrite H in F. apply follows_none in F. subst c. cbn in N1, N2.
      destruct (dims p1) as [e|] eqn:K; [|reflexivity]. exfalso. assert (O : ~ occurs "%s" (p_name (info p))).
      { intros O. destruct (N1 O) as (o & -> & T). exact T. }
      specialize (N2 O). discriminate. }
    destruct p1 as [i|i e]; [|discriminate S]. cbn in I. exists (peripheral_with i rs). split; [exact I|exact E].
  Qed.
End Share.

Lemma device_shared m fuel d e : unambiguous d -> expand m fuel d = Ok e -> exists groups,
  d_peripherals e = map Single (List.concat groups) /\ List.length groups = List.length (d_peripherals d) /\
  forall i j p q ps qs, nth_error (d_peripherals d) i = Some p -> nth_error groups i = Some ps ->
    nth_error (d_peripherals d) j = Some q -> nth_error groups j = Some qs -> peripheral_source d p q ->
    exists rs, Forall (fun y => p_registers y = rs) (ps ++ qs) /\ (rs = None <-> p_registers (info q) = None) /\
      (dims p = None -> ~ occurs "%s" (p_name (info p)) -> exists y, ps = [y] /\ p_name y = p_name (info p)) /\
      (dims q = None -> exists z, qs = [z] /\ p_name z = p_name (info q)).
Proof.
  intros U E. destruct (expand_meaning m fuel d e E) as (_ & groups & F & G). exists groups. split; [exact G|].
  assert (N : forall i p ps, nth_error (d_peripherals d) i = Some p -> nth_error groups i = Some ps -> peripheral_expanded m d p ps).
  { clear -F. induction F as [|x g l k H F IH]; intros [|i] p ps A B; cbn in *; try discriminate; [|eauto]. congruence. }
  split; [clear -F; induction F; cbn; congruence|]. intros i j p q ps qs A B C D S.
  destruct (shared_registers m d U p q ps qs S (N _ _ _ A B) (N _ _ _ C D)) as (rs & R1 & R2). exists rs. split; [exact R1|]. split; [exact R2|].
  split.
  - intros K O. exact (single_source m d p ps (N _ _ _ A B) K (or_intror O)).
  - intros K. destruct S as (before & T & _). apply follows_last in T.
    exact (single_source m d q qs (N _ _ _ C D) K (or_introl T)).
Qed.
