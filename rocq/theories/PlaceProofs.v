From Verif Require Import BaseFacts Types TreeFacts BuilderProofs Derive Arrays ArrayProofs IndexProofs InstanceProofs SpecArray SpecPath SpecExpand Expand PathProofs ExpandProofs.

(** ** Names *)
Lemma index_text_fun d k i j : index_text d k i -> index_text d k j -> i = j.
Proof. intros H K. apply index_at_text in H, K. congruence. Qed.
Lemma entry_names_sound {A} (name : A -> string) x ns n :
  entry_names name x = Ok ns -> In n ns -> is_called name x n.
Proof.
  unfold entry_names. intros H I. bnd H l E. injection H as <-. apply in_app_or in I as [I|[<-|[]]]; [|now left].
  right. destruct x as [i|i d]; [injection E as <-; destruct I|].
  apply names_spec in E as [L E]. destruct (In_nth_error _ _ I) as [k Hk].
  assert (K : (k < List.length l)%nat) by (apply nth_error_Some; congruence).
  assert (Lk : N.of_nat k < de_dim d) by (unfold len_N in L; lia).
  destruct (E (N.of_nat k) Lk) as (idx & Ht & Hn). exists i, d, (N.of_nat k), idx. conjs; auto.
  unfold nth_N in Hn. rewrite Nat2N.id, Hk in Hn. injection Hn as ->. apply instance_name_spec.
Qed.
Lemma entry_names_complete {A} (name : A -> string) x ns n :
  entry_names name x = Ok ns -> is_called name x n -> In n ns.
Proof.
  unfold entry_names. intros H I. bnd H l E. injection H as <-. apply in_or_app.
  destruct I as [->|(i & d & k & idx & -> & Lk & Ht & Hn)]; [right; now left|]. left.
  apply names_spec in E as [L E]. destruct (E k Lk) as (idx' & Ht' & Hk).
  rewrite <- (index_text_fun _ _ _ _ Ht Ht') in Hk. unfold nth_N in Hk. apply nth_error_In in Hk.
  replace n with (instance_name d (name i) idx); [exact Hk|].
  destruct (instance_name_spec d (name i) idx) as [(e & He & ->)|[Hno Hs]], Hn as [(e' & He' & ->)|[Hno' Hs']].
  - now rewrite (entry_unique _ _ _ _ He He').
  - destruct (Hno' _ He).
  - destruct (Hno _ He').
  - eapply filled_unique; eauto.
Qed.

(** ** Lookups *)
Lemma lookup_some {A} (f : entry -> option A) log x : lookup f log = Some x -> exists e, In e log /\ f e = Some x.
Proof.
  induction log as [|e log IH]; cbn [lookup]; [discriminate|]. destruct (lookup f log) as [y|] eqn:E; cbn [opt_or].
  - intros H. destruct (IH H) as (e' & I & F). exists e'. split; [now right|exact F].
  - intros F. exists e. split; [now left|exact F].
Qed.
Lemma lookup_none {A} (f : entry -> option A) log : lookup f log = None <-> forall e, In e log -> f e = None.
Proof.
  induction log as [|e log IH]; cbn [lookup]; [split; [intros _ ? []|reflexivity]|].
  destruct (lookup f log) as [y|] eqn:E; cbn [opt_or].
  - split; [discriminate|]. intros H. destruct IH as [_ IH]. discriminate IH. intros; apply H; now right.
  - destruct IH as [IH _]. specialize (IH eq_refl). split.
    + intros F e' [<-|I]; auto.
    + intros H. apply H. now left.
Qed.
Lemma lookup_in {A} (f : entry -> option A) log e x : In e log -> f e = Some x -> exists y, lookup f log = Some y.
Proof.
  intros I F. destruct (lookup f log) as [y|] eqn:E; [eauto|].
  apply lookup_none with (e := e) in E; [congruence|exact I].
Qed.

(** ** Soundness *)
Definition entry_sound (d : device) (e : entry) : Prop :=
  match e with
  | InPeripheral k p => peripheral_placed d (block_parts k) p
  | InCluster k c => cluster_placed d (block_parts k) c
  | InRegister k r => register_placed d (register_parts k) r
  | InField k f => field_placed d (field_parts k) f
  | InEnum k e => values_placed d (enum_parts k) e
  end.
Section Sound.
  Variable d : device.
  Notation sound := (Forall (entry_sound d)).
  Lemma add_field_sound rg r f l : register_placed d (register_parts rg) r ->
    In f (or_empty (r_fields (info r))) -> add_field rg f = Ok l -> sound l.
  Proof.
    unfold add_field. intros P I H. bnd H ns E. injection H as <-. apply Forall_forall. intros e Ie.
    apply in_flat_map in Ie as (n & In_ & Ie).
    assert (F : field_placed d (field_parts (new_field rg n)) f).
    { exists (register_parts rg), n, r. conjs; auto. eapply entry_names_sound; eauto. }
    apply in_app_or in Ie as [Ie|[<-|[]]]; [|exact F].
    apply in_flat_map in Ie as (ev & Iev & Ie). destruct (evs_name ev) as [s|] eqn:Es; [|destruct Ie].
    destruct Ie as [<-|[]]. exists (field_parts (new_field rg n)), s, f. auto.
  Qed.
  Lemma add_register_sound b kids r l : children_placed d (block_parts b) kids ->
    In (RCRegister r) kids -> add_register b r = Ok l -> sound l.
  Proof.
    unfold add_register. intros P I H. bnd H ns E. eapply concatM_forall; [|exact H]. intros n l1 In_ H1.
    unfold register_at in H1. bnd H1 fs Ef. injection H1 as <-.
    assert (R : register_placed d (register_parts (new_register b n)) r).
    { exists (block_parts b), n, kids. conjs; auto. eapply entry_names_sound; eauto. }
    apply Forall_app. split; [|repeat constructor; exact R].
    eapply concatM_forall; [|exact Ef]. intros f l2 If. eapply add_field_sound; eauto.
  Qed.
  Lemma add_rc_sound rc : forall b kids l, children_placed d (block_parts b) kids ->
    In rc kids -> add_rc b rc = Ok l -> sound l.
  Proof.
    induction rc as [r|c IH] using rc_tree_ind; intros b kids l P I; cbn [add_rc].
    - eapply add_register_sound; eauto.
    - rewrite Forall_forall in IH. intros H. bnd H ns E. eapply concatM_forall; [|exact H]. intros n l1 In_ H1.
      bnd H1 rs Er. bnd H1 cs Ec. injection H1 as <-.
      assert (N : is_called c_name c n) by (eapply entry_names_sound; eauto).
      assert (K : children_placed d (block_parts (new_cluster b n)) (c_children (info c))).
      { change (block_parts (new_cluster b n)) with (block_parts b ++ [n]). eapply cp_cluster; eauto. }
      repeat (apply Forall_app; split).
      + eapply concatM_forall; [|exact Er]. intros [r|c'] l2 Ix; [eapply IH; eauto|]. intros [= <-]. constructor.
      + eapply concatM_forall; [|exact Ec]. intros [r|c'] l2 Ix; [intros [= <-]; constructor|eapply IH; eauto].
      + repeat constructor. exists (block_parts b), n, kids. auto.
  Qed.
  Lemma index_sound ix : index_create d = Ok ix -> sound ix.
  Proof.
    unfold index_create. intros H. eapply concatM_forall; [|exact H]. intros p l Ip Hp.
    unfold add_peripheral in Hp. bnd Hp ns E. eapply concatM_forall; [|exact Hp]. intros n l1 In_ H1.
    bnd H1 rs Er. bnd H1 cs Ec. injection H1 as <-.
    assert (P : peripheral_placed d (block_parts (bp_new n)) p).
    { exists n. conjs; auto. eapply entry_names_sound; eauto. }
    assert (K : children_placed d (block_parts (bp_new n)) (or_empty (p_registers (info p))))
      by (apply cp_peripheral; exact P).
    change (or_empty (p_registers (info p))) with (p_children (info p)) in K.
    repeat (apply Forall_app; split).
    - eapply concatM_forall; [|exact Er]. intros r l2 Ir. apply in_rc_registers in Ir. eapply add_register_sound; eauto.
    - eapply concatM_forall; [|exact Ec]. intros c l2 Ic. apply in_rc_clusters in Ic. eapply add_rc_sound; eauto.
    - repeat constructor. exact P.
  Qed.
End Sound.

Section Lookups.
  Variables (d : device) (ix : index).
  Hypothesis Hix : index_create d = Ok ix.
  Ltac found H P := apply lookup_some in H as (e & I & H);
    pose proof (proj1 (Forall_forall _ _) (index_sound d ix Hix) e I) as P;
    destruct e; try discriminate;
    match type of H with (if ?b then _ else _) = _ => destruct b eqn:Eb; [|discriminate] end; injection H as ->.
  Lemma ix_peripheral_sound q p : ix_peripheral ix q = Some p -> peripheral_placed d (block_parts q) p.
  Proof. intros H. found H P. apply bp_eqb_eq in Eb as ->. exact P. Qed.
  Lemma ix_cluster_sound q p : ix_cluster ix q = Some p -> cluster_placed d (block_parts q) p.
  Proof. intros H. found H P. apply bp_eqb_eq in Eb as ->. exact P. Qed.
  Lemma ix_register_sound q p : ix_register ix q = Some p -> register_placed d (register_parts q) p.
  Proof. intros H. found H P. apply rg_eqb_eq in Eb as ->. exact P. Qed.
  Lemma ix_field_sound q p : ix_field ix q = Some p -> field_placed d (field_parts q) p.
  Proof. intros H. found H P. apply fp_eqb_eq in Eb as ->. exact P. Qed.
  Lemma ix_enum_sound q p : ix_enum ix q = Some p -> values_placed d (enum_parts q) p.
  Proof. intros H. found H P. apply ep_eqb_eq in Eb as ->. exact P. Qed.

  (** ** Completeness *)
  Definition recorded (b : block_path) (kids : list register_cluster) : Prop :=
    forall rc, In rc kids -> exists l, add_rc b rc = Ok l /\ incl l ix.
  Lemma concatM_part {A B} (f : A -> res (list B)) l l' a : concatM f l = Ok l' -> In a l ->
    exists bs, f a = Ok bs /\ incl bs l'.
  Proof.
    intros H I. apply concatM_ok in H as (ls & H & ->). destruct (Forall2_in_l _ _ _ H _ I) as (bs & Ib & E).
    exists bs. split; [exact E|]. intros x Ix. apply in_concat. eauto.
  Qed.
  Lemma placed_recorded path p : peripheral_placed d path p ->
    recorded (bp_new (hd EmptyString path)) (or_empty (p_registers (info p))) /\
    In (InPeripheral (bp_new (hd EmptyString path)) p) ix.
  Proof.
    intros (n & -> & Ip & Nm). cbn [hd]. destruct (concatM_part _ _ _ _ Hix Ip) as (l & E & S).
    unfold add_peripheral in E. bnd E ns En. pose proof (entry_names_complete _ _ _ _ En Nm) as In_.
    destruct (concatM_part _ _ _ _ E In_) as (l1 & E1 & S1). bnd E1 rs Er. bnd E1 cs Ec. injection E1 as <-.
    split.
    - intros rc I. change (or_empty (p_registers (info p))) with (p_children (info p)) in I.
      destruct rc as [r|c].
      + apply in_rc_registers in I. destruct (concatM_part _ _ _ _ Er I) as (l2 & E2 & S2). exists l2. split; [exact E2|].
        intros x Ix. apply S, S1, in_or_app. left. auto.
      + apply in_rc_clusters in I. destruct (concatM_part _ _ _ _ Ec I) as (l2 & E2 & S2). exists l2. split; [exact E2|].
        intros x Ix. apply S, S1, in_or_app. right. apply in_or_app. left. auto.
    - apply S, S1. apply in_or_app. right. apply in_or_app. right. now left.
  Qed.
  Lemma cluster_recorded b kids c n : recorded b kids -> In (RCCluster c) kids -> is_called c_name c n ->
    recorded (new_cluster b n) (c_children (info c)) /\ In (InCluster (new_cluster b n) c) ix.
  Proof.
    intros R I Nm. destruct (R _ I) as (l & E & S). cbn [add_rc] in E. bnd E ns En.
    pose proof (entry_names_complete _ _ _ _ En Nm) as In_.
    destruct (concatM_part _ _ _ _ E In_) as (l1 & E1 & S1). bnd E1 rs Er. bnd E1 cs Ec. injection E1 as <-.
    split.
    - intros [r|c'] Ix.
      + destruct (concatM_part _ _ _ _ Er Ix) as (l2 & E2 & S2). exists l2. split; [exact E2|].
        intros x Hx. apply S, S1, in_or_app. left. auto.
      + destruct (concatM_part _ _ _ _ Ec Ix) as (l2 & E2 & S2). exists l2. split; [exact E2|].
        intros x Hx. apply S, S1, in_or_app. right. apply in_or_app. left. auto.
    - apply S, S1. apply in_or_app. right. apply in_or_app. right. now left.
  Qed.
  Lemma children_recorded path kids : children_placed d path kids ->
    exists b, path = block_parts b /\ recorded b kids.
  Proof.
    induction 1 as [path p P|path n kids c H (b & -> & R) I Nm].
    - pose proof (placed_recorded _ _ P) as [R _]. destruct P as (n & -> & _). exists (bp_new n). split; [reflexivity|exact R].
    - exists (new_cluster b n). split; [reflexivity|]. eapply cluster_recorded; eauto.
  Qed.
  Lemma block_parts_inj b b' : block_parts b = block_parts b' -> b = b'.
  Proof. destruct b, b'. cbn. now intros [= -> ->]. Qed.
  Lemma register_parts_inj b b' : register_parts b = register_parts b' -> b = b'.
  Proof.
    destruct b as [b n], b' as [b' n']. unfold register_parts. cbn [rg_block rg_name]. intros H.
    apply app_inj_tail in H as [H ->]. apply block_parts_inj in H as ->. reflexivity.
  Qed.
  Lemma field_parts_inj b b' : field_parts b = field_parts b' -> b = b'.
  Proof.
    destruct b as [b n], b' as [b' n']. unfold field_parts. cbn [fp_register fp_name]. intros H.
    apply app_inj_tail in H as [H ->]. apply register_parts_inj in H as ->. reflexivity.
  Qed.
  Lemma register_recorded path r : register_placed d path r ->
    exists q fs, path = register_parts q /\ In (InRegister q r) ix /\
      concatM (add_field q) (or_empty (r_fields (info r))) = Ok fs /\ incl fs ix.
  Proof.
    intros (block & n & kids & -> & C & I & Nm). apply children_recorded in C as (b & -> & R).
    destruct (R _ I) as (l & E & S). cbn [add_rc] in E. unfold add_register in E. bnd E ns En.
    pose proof (entry_names_complete _ _ _ _ En Nm) as In_.
    destruct (concatM_part _ _ _ _ E In_) as (l1 & E1 & S1). unfold register_at in E1. bnd E1 fs Ef. injection E1 as <-.
    exists (new_register b n), fs. conjs; [reflexivity| |exact Ef|].
    - apply S, S1, in_or_app. right. now left.
    - intros x Hx. apply S, S1, in_or_app. now left.
  Qed.
  Lemma field_recorded path f : field_placed d path f ->
    exists q, path = field_parts q /\ incl (field_at q f) ix.
  Proof.
    intros (reg & n & r & -> & R & I & Nm). apply register_recorded in R as (q & fs & -> & _ & Ef & S).
    destruct (concatM_part _ _ _ _ Ef I) as (l & E & Sl). unfold add_field in E. bnd E ns En. injection E as <-.
    pose proof (entry_names_complete _ _ _ _ En Nm) as In_. exists (new_field q n). split; [reflexivity|].
    intros x Hx. apply S, Sl, in_flat_map. eauto.
  Qed.
  Lemma ix_peripheral_complete q p : peripheral_placed d (block_parts q) p -> exists p', ix_peripheral ix q = Some p'.
  Proof.
    intros P. pose proof (placed_recorded _ _ P) as [_ I]. destruct P as (n & E & _).
    destruct q as [q l]. cbn in E. injection E as -> ->. cbn in I. eapply lookup_in; [exact I|]. cbn.
    now rewrite (proj2 (bp_eqb_eq _ _) eq_refl).
  Qed.
  Lemma ix_cluster_complete q c : cluster_placed d (block_parts q) c -> exists c', ix_cluster ix q = Some c'.
  Proof.
    intros (block & n & kids & E & C & I & Nm). apply children_recorded in C as (b & -> & R).
    pose proof (cluster_recorded _ _ _ _ R I Nm) as [_ In_]. eapply lookup_in; [exact In_|]. cbn.
    change (block_parts b ++ [n]) with (block_parts (new_cluster b n)) in E. apply block_parts_inj in E as ->.
    now rewrite (proj2 (bp_eqb_eq _ _) eq_refl).
  Qed.
  Lemma ix_register_complete q r : register_placed d (register_parts q) r -> exists r', ix_register ix q = Some r'.
  Proof.
    intros P. apply register_recorded in P as (q' & fs & E & I & _). apply register_parts_inj in E as ->.
    eapply lookup_in; [exact I|]. cbn. now rewrite (proj2 (rg_eqb_eq _ _) eq_refl).
  Qed.
  Lemma ix_field_complete q f : field_placed d (field_parts q) f -> exists f', ix_field ix q = Some f'.
  Proof.
    intros P. apply field_recorded in P as (q' & E & S). apply field_parts_inj in E as ->.
    eapply lookup_in; [apply S; unfold field_at; apply in_or_app; right; now left|]. cbn.
    now rewrite (proj2 (fp_eqb_eq _ _) eq_refl).
  Qed.
  Lemma ix_enum_complete q e : values_placed d (enum_parts q) e -> exists e', ix_enum ix q = Some e'.
  Proof.
    intros (fld & n & f & E & P & I & Nm). apply field_recorded in P as (q' & -> & S).
    destruct q as [q nm]. unfold enum_parts in E. cbn [ep_field ep_name] in E. apply app_inj_tail in E as [E ->].
    apply field_parts_inj in E as ->.
    eapply lookup_in with (e := InEnum (new_enum q' n) e).
    - apply S. unfold field_at. apply in_or_app. left. apply in_flat_map. exists e. split; [exact I|]. rewrite Nm. now left.
    - cbn. unfold new_enum. now rewrite (proj2 (ep_eqb_eq _ _) eq_refl).
  Qed.
End Lookups.

(** Of several peripherals with one name the last is found. *)
Lemma lookup_app {A} (f : entry -> option A) a b : lookup f (a ++ b) = opt_or (lookup f b) (lookup f a).
Proof. induction a as [|e a IH]; cbn [lookup app]; [now destruct (lookup f b)|]. rewrite IH. now destruct (lookup f b). Qed.
Lemma add_peripheral_only p l q x : add_peripheral p = Ok l -> ix_peripheral l q = Some x -> x = p.
Proof.
  intros H E. apply lookup_some in E as (e & I & E). unfold add_peripheral in H. bnd H ns En.
  destruct (concatM_in _ _ _ _ H I) as (n & l1 & _ & H1 & I1). bnd H1 rs Er. bnd H1 cs Ec. injection H1 as <-.
  destruct e; try discriminate.
  assert (K1 : forall b r l, add_register b r = Ok l -> In (InPeripheral path p0) l -> False).
  { clear. intros b r l H I. unfold add_register in H. bnd H ns E. destruct (concatM_in _ _ _ _ H I) as (n & l1 & _ & H1 & I1).
    unfold register_at in H1. bnd H1 fs Ef. injection H1 as <-. apply in_app_or in I1 as [I1|[[=]|[]]].
    destruct (concatM_in _ _ _ _ Ef I1) as (f & l2 & _ & H2 & I2). unfold add_field in H2. bnd H2 ns2 E2. injection H2 as <-.
    apply in_flat_map in I2 as (n2 & _ & I2). apply in_app_or in I2 as [I2|[[=]|[]]].
    apply in_flat_map in I2 as (ev & _ & I2). destruct (evs_name ev); [destruct I2 as [[=]|[]]|destruct I2]. }
  assert (K2 : forall rc b l, add_rc b rc = Ok l -> In (InPeripheral path p0) l -> False).
  { clear - K1. induction rc as [r|c IH] using rc_tree_ind; intros b l H I; cbn [add_rc] in H; [eauto|].
    rewrite Forall_forall in IH.
    bnd H ns E. destruct (concatM_in _ _ _ _ H I) as (n & l1 & _ & H1 & I1). bnd H1 rs Er. bnd H1 cs Ec. injection H1 as <-.
    repeat (apply in_app_or in I1 as [I1|I1]).
    - destruct (concatM_in _ _ _ _ Er I1) as ([r|c'] & l2 & Ix & H2 & I2); [eapply IH; eauto|injection H2 as <-; destruct I2].
    - destruct (concatM_in _ _ _ _ Ec I1) as ([r|c'] & l2 & Ix & H2 & I2); [injection H2 as <-; destruct I2|eapply IH; eauto].
    - destruct I1 as [[=]|[]]. }
  repeat (apply in_app_or in I1 as [I1|I1]).
  - destruct (concatM_in _ _ _ _ Er I1) as (r & l2 & _ & H2 & I2). destruct (K1 _ _ _ H2 I2).
  - destruct (concatM_in _ _ _ _ Ec I1) as (r & l2 & _ & H2 & I2). destruct (K2 _ _ _ H2 I2).
  - destruct I1 as [[= <- <-]|[]]. destruct (bp_eqb _ _); congruence.
Qed.
Lemma ix_peripheral_last d ix n before p after : index_create d = Ok ix ->
  d_peripherals d = before ++ p :: after -> is_called p_name p n ->
  (forall x, In x after -> ~ is_called p_name x n) -> ix_peripheral ix (bp_new n) = Some p.
Proof.
  unfold index_create. intros H E Nm No. rewrite E, concatM_app in H. bnd H l1 E1. bnd H l2 E2. injection H as <-.
  cbn [concatM] in E2. bnd E2 lp Ep. bnd E2 la Ea. injection E2 as <-.
  unfold ix_peripheral. rewrite !lookup_app.
  assert (Na : ix_peripheral la (bp_new n) = None).
  { destruct (ix_peripheral la (bp_new n)) as [x|] eqn:F; [|reflexivity].
    destruct (ix_peripheral_sound (d_set_peripherals d after) la Ea _ _ F) as (n' & [= <-] & I & Nx).
    destruct (No _ I Nx). }
  unfold ix_peripheral in Na. rewrite Na. cbn [opt_or].
  destruct (ix_peripheral_complete (d_set_peripherals d [p]) lp) with (q := bp_new n) (p := p) as [p' F].
  - unfold index_create. cbn [concatM d_peripherals d_set_peripherals]. rewrite Ep. cbn. now rewrite app_nil_r.
  - exists n. conjs; [reflexivity|now left|exact Nm].
  - pose proof (add_peripheral_only _ _ _ _ Ep F) as ->. unfold ix_peripheral in F. rewrite F. reflexivity.
Qed.
