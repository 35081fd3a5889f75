(** The properties of the registers of an expanded device. *)
From Verif Require Import Base BaseFacts Types Arrays Expand SpecExpand SpecProps SpecLeaves TreeFacts ExpandProofs PropertyProofs.

Definition flat (l : list register_cluster) : list reg_props :=
  flat_map (fun rc => match rc with RCRegister r => [r_properties (info r)] | RCCluster _ => [] end) l.
Fixpoint leaf_props (rc : register_cluster) : list reg_props :=
  match rc with
  | RCRegister r => repeat (r_properties (info r)) (copies r)
  | RCCluster c => List.concat (repeat (flat_map leaf_props (c_children (info c))) (copies c))
  end.

Lemma repeat_all {A B} (q : B) (l : list A) : map (fun _ => q) l = repeat q (List.length l).
Proof. induction l as [|a l IH]; [reflexivity|]. cbn. now rewrite IH. Qed.
Lemma flat_app a b : flat (a ++ b) = flat a ++ flat b.
Proof. apply flat_map_app. Qed.
Lemma flat_concat ls : flat (List.concat ls) = List.concat (map flat ls).
Proof. induction ls as [|l ls IH]; [reflexivity|]. cbn. now rewrite flat_app, IH. Qed.
Lemma flat_singles (l : list register_info) : flat (map (fun i => RCRegister (Single i)) l) = map r_properties l.
Proof. induction l as [|i l IH]; [reflexivity|]. cbn. f_equal. exact IH. Qed.
Lemma concat_map_flat {A B} (f : A -> list B) l : List.concat (map f l) = flat_map f l.
Proof. symmetry. apply flat_map_concat_map. Qed.

Lemma in_zip {A B} (R : A -> B -> Prop) l l' : Forall2 R l l' -> forall y, In y l' -> exists x, In x l /\ R x y.
Proof.
  induction 1 as [|x y l l' X H IH]; intros z I; [destruct I|]. destruct I as [<-|I]; [exists x; split; [now left|assumption]|].
  destruct (IH _ I) as (w & W & Z). exists w. split; [now right|assumption].
Qed.
Section Leaves.
  Variables (m : mode) (ix : index).
  Lemma register_leaves k path r out : r_derived_from (info r) = None -> expand_register_array m ix k path r = Ok out ->
    flat out = leaf_props (RCRegister r).
  Proof.
    intros D H. unfold expand_register_array in H. rewrite D in H. cbn [bind fst snd] in H.
    apply bind_ok in H as (r' & R & H).
    assert (S : copies r' = copies r /\ r_properties (info r') = r_properties (info r) /\
                match r, r' with Single _, Single _ => True | Array _ d, Array _ d' => d = d' | _, _ => False end).
    { destruct (r_fields (info r)) as [fs|].
      - apply bind_ok in R as (l & _ & R). injection R as <-. destruct r; repeat split.
      - injection R as <-. destruct r; repeat split. }
    destruct S as (C & P & S). cbn [leaf_props]. rewrite <- C, <- P. destruct r' as [i|i d].
    - injection H as <-. reflexivity.
    - apply bind_ok in H as (l & L & H). injection H as <-. rewrite flat_singles. cbn [copies info].
      unfold register_expand in L. assert (Z := mapM_length _ _ _ L). apply mapM_ok in L.
      assert (E : map r_properties l = map (fun _ => r_properties i) l).
      { clear - L. induction L as [|a x l l' X L IH]; [reflexivity|]. cbn. f_equal; [|exact IH].
        unfold register_instance in X. apply bind_ok in X as (idx & _ & X). apply bind_ok in X as (off & _ & X).
        injection X as <-. reflexivity. }
      rewrite E, repeat_all, Z, upto_length. reflexivity.
  Qed.
  Lemma hoisted_leaves c out : expand_cluster m c = Ok out -> flat out = flat (c_children c).
  Proof.
    unfold expand_cluster. intros H. apply mapM_ok in H.
    induction H as [|x y l l' X H IH]; [reflexivity|].
    destruct x as [r|?]; [|discriminate X]. apply bind_ok in X as (off & _ & X). injection X as <-.
    cbn [flat flat_map]. fold (flat l). fold (flat l'). rewrite IH. destruct r; reflexivity.
  Qed.
  Lemma all_leaves (f : register_cluster -> res (list register_cluster)) rcs ls :
    (forall rc l, plain_rc rc -> f rc = Ok l -> flat l = leaf_props rc) -> Forall plain_rc rcs ->
    Forall2 (fun rc l => f rc = Ok l) rcs ls -> map flat ls = map leaf_props rcs.
  Proof.
    intros IH K E. induction E as [|x y l l' X E IH']; [reflexivity|]. inversion K; subst. cbn. f_equal; [now apply IH|now apply IH'].
  Qed.
  Lemma rc_leaves k : forall path rc out, plain_rc rc -> expand_rc m ix k path rc = Ok out -> flat out = leaf_props rc.
  Proof.
    induction k as [|k IH]; intros path rc out P H; [discriminate|]. cbn [expand_rc] in H.
    destruct P as [r D|c D K]; [now apply register_leaves in H|].
    unfold cluster_info, cluster in *. rewrite D in H. cbn [bind fst snd] in H. apply bind_ok in H as (kids & E & H).
    assert (F : flat kids = flat_map leaf_props (c_children (info c))).
    { apply concatM_ok in E as (ls & E & ->). rewrite flat_concat. rewrite <- concat_map_flat. f_equal.
      refine (all_leaves (expand_rc m ix k _) _ _ _ K E). intros rc l X. now apply IH. }
    cbn [leaf_props]. unfold cluster_info in *. rewrite <- F. destruct c as [i|i d]; cbn [ma_map copies] in *.
    - apply hoisted_leaves in H. rewrite H. cbn. now rewrite app_nil_r.
    - apply concatM_ok in H as (ls & H & ->). rewrite flat_concat.
      assert (Z : map flat ls = map (fun _ => flat kids) (upto (de_dim d))).
      { clear - H. induction H as [|x y l l' X H IH]; [reflexivity|]. cbn [map]. f_equal; [|exact IH].
        apply bind_ok in X as (c & C & X). apply hoisted_leaves in X. rewrite X.
        unfold cluster_instance in C. apply bind_ok in C as (idx & _ & C). apply bind_ok in C as (off & _ & C).
        injection C as <-. reflexivity. }
      rewrite Z, repeat_all, upto_length. reflexivity.
  Qed.
  Lemma peripheral_leaves k p out : p_derived_from (info p) = None -> Forall plain_rc (or_empty (p_registers (info p))) ->
    expand_peripheral m ix k p = Ok out ->
    map flat_properties out = repeat (flat_map leaf_props (or_empty (p_registers (info p)))) (copies p).
  Proof.
    intros D K H. unfold expand_peripheral in H. rewrite D in H. cbn [bind fst snd] in H.
    apply bind_ok in H as (p' & R & H).
    assert (S : copies p' = copies p /\ flat_properties p' = flat_map leaf_props (or_empty (p_registers (info p)))).
    { destruct (p_registers (info p)) as [rs|] eqn:G.
      - apply bind_ok in R as (l & L & R). injection R as <-. split; [now destruct p|].
        unfold flat_properties.
        assert (Z : p_registers (info (ma_map (fun i => p_with i (Some l) (p_derived_from i)) p)) = Some l) by now destruct p.
        rewrite Z. cbn [or_empty] in *. fold (flat l). apply concatM_ok in L as (ls & L & ->). rewrite flat_concat, <- concat_map_flat.
        f_equal. refine (all_leaves _ _ _ _ K L). intros rc o X. now apply rc_leaves.
      - injection R as <-. split; [reflexivity|]. unfold flat_properties. now rewrite G. }
    destruct S as [C F]. rewrite <- C, <- F. destruct p' as [i|i d].
    - injection H as <-. reflexivity.
    - apply bind_ok in H as (l & L & H). injection H as <-. unfold peripheral_expand in L.
      assert (Z := mapM_length _ _ _ L). apply mapM_ok in L. cbn [copies].
      assert (E : map flat_properties (map Single l) = map (fun _ => flat_properties (Array i d)) l).
      { clear - L. induction L as [|a x l l' X L IH]; [reflexivity|]. cbn [map]. f_equal; [|exact IH].
        unfold peripheral_instance in X. apply bind_ok in X as (idx & _ & X). apply bind_ok in X as (off & _ & X).
        injection X as <-. reflexivity. }
      rewrite E, repeat_all, Z, upto_length. reflexivity.
  Qed.
End Leaves.

Lemma all_filled levels rcs ks :
  (forall rc, In rc rcs -> forall rc', plain_rc rc -> filled levels rc rc' -> plain_rc rc' /\ leaves levels rc (leaf_props rc')) ->
  Forall plain_rc rcs -> Forall2 (filled levels) rcs ks -> Forall plain_rc ks /\ Forall2 (leaves levels) rcs (map leaf_props ks).
Proof.
  intros IH K F. induction F as [|x y l l' X F IHl]; [split; constructor|]. inversion K; subst.
  destruct (IH x (or_introl eq_refl) _ ltac:(assumption) X) as [A B].
  destruct IHl as [C D]; [intros z Z; apply IH; now right|assumption|]. split; constructor; assumption.
Qed.
Lemma filled_leaves rc : forall levels rc', plain_rc rc -> filled levels rc rc' -> plain_rc rc' /\ leaves levels rc (leaf_props rc').
Proof.
  induction rc as [r|c IH] using rc_tree_ind; intros levels rc' P F; inversion P; subst; inversion F; subst; try contradiction.
  - match goal with H : exists q, _ |- _ => destruct H as (q & Q & ->) end. split.
    + constructor. destruct r; assumption.
    + cbn [leaf_props]. replace (repeat _ _) with (repeat q (copies r)) by now destruct r. now constructor.
  - rewrite Forall_forall in IH. rename kids into ks.
    assert (Z : Forall plain_rc ks /\ Forall2 (leaves (c_default_properties (info c) :: levels)) (c_children (info c)) (map leaf_props ks)).
    { eapply all_filled; [|eassumption|eassumption]. intros rc I' rc'. now apply IH. }
    destruct Z as [A B]. split.
    + constructor; destruct c; assumption.
    + cbn [leaf_props]. replace (List.concat _) with (List.concat (repeat (List.concat (map leaf_props ks)) (copies c))).
      * now constructor.
      * rewrite concat_map_flat. now destruct c.
Qed.

Lemma device_leaves m fuel d e : plain_device d -> expand m fuel (expand_properties d) = Ok e ->
  exists psss, Forall2 (leaves_of_peripheral (d_default_properties d)) (d_peripherals d) psss /\
    map flat_properties (d_peripherals e) = List.concat psss.
Proof.
  intros P H. unfold expand in H. apply bind_ok in H as (ix & _ & H). apply bind_ok in H as (ps & L & H). injection H as <-.
  cbn [d_set_peripherals d_peripherals].
  destruct (expand_properties_filled d) as [_ F]. set (d' := expand_properties d) in *. unfold plain_device in P.
  apply concatM_ok in L as (ls & L & ->). revert ls L. induction F as [|p p' l l' X F IH]; intros ls L; inversion L; subst.
  - exists []. split; [constructor|reflexivity].
  - inversion P as [|? ? [D K] P']; subst. destruct (IH P' _ ltac:(eassumption)) as (psss & A & B).
    destruct X as [_ X]. destruct (X D) as (rs & -> & R).
    assert (Z : Forall plain_rc (or_empty rs) /\ exists qss, Forall2 (leaves [p_default_properties (info p); d_default_properties d]) (or_empty (p_registers (info p))) qss /\
                List.concat qss = flat_map leaf_props (or_empty rs)).
    { destruct (p_registers (info p)) as [rl|]; [|subst rs; split; [constructor|exists []; split; [constructor|reflexivity]]].
      destruct R as (rl' & -> & R). cbn [or_empty] in *. revert K. clear - R. induction R as [|x y l l' X R IH]; intros K.
      - split; [constructor|]. exists []. split; [constructor|reflexivity].
      - inversion K; subst. destruct (filled_leaves _ _ _ ltac:(eassumption) X) as [A B].
        destruct IH as (C & qss & E & G); [assumption|]. split; [now constructor|]. exists (leaf_props y :: qss).
        split; [now constructor|]. cbn. now rewrite G. }
    destruct Z as (Z & qss & Q & G).
    match goal with H : expand_peripheral _ _ _ _ = Ok _ |- _ => apply peripheral_leaves in H end.
    + exists (repeat (List.concat qss) (copies p) :: psss). split.
      * constructor; [|exact A]. now exists qss.
      * cbn [List.concat]. rewrite map_app, B. f_equal. match goal with H : map flat_properties _ = _ |- _ => rewrite H end.
        rewrite G. destruct p; reflexivity.
    + destruct p; assumption.
    + destruct p; assumption.
Qed.

Lemma nearest_given {A B} (get : A -> option B) l v x : In x l -> nearest get l v -> get x <> None -> v <> None.
Proof.
  induction l as [|y l IH]; intros I N G; [destruct I|]. destruct N as [(b & _ & ->)|[E N]]; [discriminate|].
  destruct I as [->|I]; [congruence|]. now apply IH.
Qed.
Lemma leaves_given top rc : forall levels qs, In top levels -> leaves levels rc qs -> Forall (at_least top) qs.
Proof.
  induction rc as [r|c IH] using rc_tree_ind; intros levels qs I L; inversion L; subst.
  - apply Forall_forall. intros x X. apply repeat_spec in X as ->.
    match goal with H : resolved _ _ |- _ => destruct H as (A & B & C & D & E) end. unfold at_least. pose proof (in_cons (r_properties (info r)) _ _ I) as I'.
    exact (conj (nearest_given _ _ _ top I' A) (conj (nearest_given _ _ _ top I' B)
      (conj (nearest_given _ _ _ top I' C) (conj (nearest_given _ _ _ top I' D)
      (nearest_given _ _ _ top I' E))))).
  - apply Forall_forall. intros x X. apply in_concat in X as (ys & Y & X). apply repeat_spec in Y as ->.
    apply in_concat in X as (zs & Z & X). rewrite Forall_forall in IH.
    match goal with H : Forall2 _ _ qss |- _ => destruct (in_zip _ _ _ H _ Z) as (rc & R & W) end.
    pose proof (IH _ R _ _ (in_cons _ _ _ I) W) as F. rewrite Forall_forall in F. now apply F.
Qed.
Lemma device_complete m fuel d e : plain_device d -> expand m fuel (expand_properties d) = Ok e ->
  forall p q, In p (d_peripherals e) -> In q (flat_properties p) -> at_least (d_default_properties d) q.
Proof.
  intros P H p q I J. destruct (device_leaves _ _ _ _ P H) as (psss & F & E).
  assert (K : In (flat_properties p) (List.concat psss)) by (rewrite <- E; now apply List.in_map).
  apply in_concat in K as (pss & K & L). destruct (in_zip _ _ _ F _ K) as (p0 & _ & (qss & Q & ->)).
  apply repeat_spec in L. rewrite L in J. apply in_concat in J as (qs & S & J).
  destruct (in_zip _ _ _ Q _ S) as (rc & _ & W). pose proof (leaves_given (d_default_properties d) _ _ _ (in_cons _ _ _ (in_eq _ _)) W) as G.
  rewrite Forall_forall in G. now apply G.
Qed.
