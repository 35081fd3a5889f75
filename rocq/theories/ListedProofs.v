(** Proofs of the converse of C50: a description that comes back from its serde form as it was lists the
    indexes of its arrays, and they can be told apart. *)
From Verif Require Import Base BaseFacts Types Serde SpecNum SpecArray SpecParse SpecValidate SpecRound SpecSerde TreeFacts ParseProofs SerdeProofs SerdeMore PropSerde.

Definition well_listed (a : dim_element) : Prop := exists l, de_index a = Some l /\ indexes_in l.
Lemma mapM_both {A B} (f : A -> res B) (g : B -> res A) l vs : mapM f l = Ok vs -> mapM g vs = Ok l ->
  forall a, In a l -> exists v, f a = Ok v /\ g v = Ok a.
Proof.
  revert vs. induction l as [|x l IH]; intros vs F G a I; [easy|]. cbn in F. apply bind_ok in F as (v & Fx & F). apply bind_ok in F as (ws & Fl & F).
  injection F as <-. cbn in G. apply bind_ok in G as (x' & Gx & G). apply bind_ok in G as (l' & Gl & G). injection G as -> ->.
  destruct I as [<-|I]; eauto.
Qed.
Lemma opt_both {A} k (f : data -> res A) (g : data -> res (list A)) es o (l : option (list A)) : has_key k es = false ->
  take_opt k g (put_opt k DSeq o ++ es) = Ok l ->
  match o, l with Some vs, Some xs => g (DSeq vs) = Ok xs | None, None => True | _, _ => False end.
Proof.
  intros K E. destruct o as [vs|]; cbn [put_opt app] in E.
  - unfold take_opt, entry in E. rewrite seqb_refl, K in E. cbn [opt] in E. destruct (g (DSeq vs)) as [xs| |]; try discriminate.
    injection E as <-. reflexivity.
  - unfold take_opt in E. rewrite entry_none in E by exact K. cbn in E. injection E as <-. exact I.
Qed.
Lemma de_listed d es : dimless es -> de_get (de_put d ++ es) = Ok d -> well_listed d.
Proof.
  intros L H. unfold de_get, de_put in H. apply bind_ok in H as (n & _ & H). apply bind_ok in H as (i & _ & H). apply bind_ok in H as (x & X & H).
  apply bind_ok in H as (? & _ & H). apply bind_ok in H as (? & _ & H). injection H as H. assert (E : de_index d = x) by (rewrite <- H; reflexivity). clear H.
  assert (L3 := L "dimIndex"%string ltac:(cbn; tauto)). rewrite <- !app_assoc in X. cbn [app] in X. rewrite !need_pass in X by reflexivity.
  destruct (de_index d) as [l|] eqn:DI; cbn [put_opt app] in X.
  - exists l. split; [exact DI|]. apply C50_indexes. subst x.
    unfold need, entry in X. rewrite seqb_refl in X.
    match type of X with context [has_key ?k ?e] => assert (Z : has_key k e = false) by lacks; rewrite Z in X end.
    destruct (dim_index_get (dim_index_put l)); [|discriminate..]. exact X.
  - rewrite need_none in X by lacks. discriminate.
Qed.
Lemma any_listed {A} (put : A -> res entries) (get : entries -> res A) x v :
  (forall i es, put i = Ok es -> dimless es) -> ma_put put x = Ok v -> ma_get get v = Ok x ->
  (exists pre es, put (info x) = Ok es /\ among_dims pre /\ get (pre ++ es) = Ok (info x)) /\
  (forall a d, x = Array a d -> well_listed d).
Proof.
  intros D E G. destruct x as [i|i d]; cbn [ma_put info] in *; apply bind_ok in E as (es & Ei & E).
  - injection E as <-. unfold ma_get, struct in G. split; [|discriminate]. exists [], es. split; [exact Ei|]. split; [intros k _; reflexivity|]. cbn [app].
    destruct (de_get es); try discriminate; apply bind_ok in G as (i' & Gi & G); [discriminate|]. injection G as ->. exact Gi.
  - specialize (D _ _ Ei). assert (L : forall x, de_get (de_put d ++ es) = Ok x -> x = d -> well_listed d) by (intros x X ->; now apply de_listed with es).
    pose proof (has_dims d) as Hd. remember (de_put d) as pre eqn:Ep. clear Ep. injection E as <-. unfold ma_get, struct in G.
    destruct (de_get (pre ++ es)) as [d'| |] eqn:X; [|apply bind_ok in G as (i' & Gi & G); discriminate|discriminate].
    apply bind_ok in G as (i' & Gi & G). injection G as -> ->. split.
    + exists pre, es. split; [exact Ei|]. split; [exact Hd|exact Gi].
    + intros a d' Y. injection Y as <- <-. now apply (L d).
Qed.
Lemma field_dimless m f es : field_put m f = Ok es -> dimless es.
Proof.
  intros E. unfold field_put in E. apply bind_ok in E as (br & B & E). pose proof (fun k => has_bits m _ _ k B) as Hb. injection E as <-.
  intros k K. dims_in; solve [lacks].
Qed.
Lemma register_dimless m r es : register_put m r = Ok es -> dimless es.
Proof. intros E. unfold register_put in E. apply bind_ok in E as (o & _ & E). injection E as <-. intros k K. dims_in; solve [lacks]. Qed.
Lemma cluster_dimless {RC} (put : RC -> res data) (c : cluster_info_of RC) es : cluster_put put c = Ok es -> dimless es.
Proof. intros E. unfold cluster_put in E. apply bind_ok in E as (o & _ & E). injection E as <-. intros k K. dims_in; solve [lacks]. Qed.
Lemma peripheral_dimless m p es : peripheral_put m p = Ok es -> dimless es.
Proof. intros E. unfold peripheral_put in E. apply bind_ok in E as (o & _ & E). injection E as <-. intros k K. dims_in; solve [lacks]. Qed.
Ltac seek H := cbn [app] in H; repeat first
  [ rewrite opt_pass in H by reflexivity | rewrite need_pass in H by reflexivity | rewrite opt_skip in H by lacks | rewrite need_skip in H by lacks ].
Section Listed.
  Variables (m m' : mode).
  Lemma register_listed r pre es n a : register_put m r = Ok es -> among_dims pre -> register_get m' (pre ++ es) = Ok r ->
    array_in_register r n a -> well_listed a.
  Proof.
    intros E D G [fs f a' Ef If]. unfold among_dims in D. unfold register_put in E. apply bind_ok in E as (o & Eo & E). injection E as <-. unfold register_get in G.
    do 11 apply bind_ok in G as (? & _ & G). apply bind_ok in G as (l & Gl & G). apply bind_ok in G as (? & _ & G). injection G as G.
    assert (El : l = Some fs) by (rewrite <- Ef, <- G; reflexivity). rewrite Ef in Eo. cbn [mapM_opt] in Eo. apply bind_ok in Eo as (vs & Ev & Eo). injection Eo as <-.
    subst l. clear G. seek Gl. apply (opt_both _ (fun _ => Err EDeserialize)) in Gl; [|lacks]. cbn [seq_of] in Gl.
    destruct (mapM_both _ _ _ _ Ev Gl _ If) as (v & X & Y). destruct (any_listed _ _ _ _ (field_dimless m) X Y) as [_ Z]. now apply (Z f).
  Qed.
  Lemma rc_listed rc n a : array_in_rc rc n a -> forall v, rc_put m rc = Ok v -> rc_get m' v = Ok rc -> well_listed a.
  Proof.
    induction 1 as [r a|r n a A|c a|c rc n a I A IH]; intros v E G; cbn [rc_put] in E; apply bind_ok in E as (w & E & X); injection X as <-; cbn [rc_get] in G;
      first [ change (seqb "register" "register") with true in G | change (seqb "cluster" "register") with false in G; change (seqb "cluster" "cluster") with true in G ];
      cbv iota in G; apply bind_ok in G as (y & G & X); injection X as ->.
    - destruct (any_listed _ _ _ _ (register_dimless m) E G) as [_ Z]. now apply (Z r).
    - destruct (any_listed _ _ _ _ (register_dimless m) E G) as [(pre & es & X & Y & Z) _]. eapply register_listed; eauto.
    - destruct (any_listed _ _ _ _ (cluster_dimless (rc_put m)) E G) as [_ Z]. now apply (Z c).
    - destruct (any_listed _ _ _ _ (cluster_dimless (rc_put m)) E G) as [(pre & es & X & D & Z) _]. unfold among_dims in D.
      unfold cluster_put in X. apply bind_ok in X as (vs & Ev & X). injection X as <-. unfold cluster_get in Z.
      do 6 apply bind_ok in Z as (? & _ & Z). apply bind_ok in Z as (l & Gl & Z). apply bind_ok in Z as (? & _ & Z). injection Z as Z.
      assert (El : l = c_children (info c)) by (rewrite <- Z; reflexivity). subst l. clear Z. seek Gl.
      unfold need, entry in Gl. rewrite seqb_refl in Gl.
      match type of Gl with context [has_key ?k ?e] => assert (Q : has_key k e = false) by lacks; rewrite Q in Gl end.
      cbn [seq_of] in Gl. destruct (mapM (rc_get m') vs) as [l| |] eqn:El; [|discriminate..]. cbn in Gl. injection Gl as ->.
      destruct (mapM_both _ _ _ _ Ev El _ I) as (u & U & V). eauto.
  Qed.
  Lemma peripheral_listed p pre es n a : peripheral_put m p = Ok es -> among_dims pre -> peripheral_get m' (pre ++ es) = Ok p ->
    array_in_peripheral p n a -> well_listed a.
  Proof.
    intros E D G [rcs rc n' a' Er Ir A]. unfold among_dims in D. unfold peripheral_put in E. apply bind_ok in E as (o & Eo & E). injection E as <-. unfold peripheral_get in G.
    do 13 apply bind_ok in G as (? & _ & G). apply bind_ok in G as (l & Gl & G). apply bind_ok in G as (? & _ & G). injection G as G.
    assert (El : l = Some rcs) by (rewrite <- Er, <- G; reflexivity). rewrite Er in Eo. cbn [mapM_opt] in Eo. apply bind_ok in Eo as (vs & Ev & Eo). injection Eo as <-.
    subst l. clear G. seek Gl. apply (opt_both _ (fun _ => Err EDeserialize)) in Gl; [|lacks]. cbn [seq_of] in Gl.
    destruct (mapM_both _ _ _ _ Ev Gl _ Ir) as (v & X & Y). eapply rc_listed; eauto.
  Qed.
  Theorem device_well_listed d v n a : device_put m d = Ok v -> device_get m' v = Ok d -> array_in_device d n a -> well_listed a.
  Proof.
    intros E G A. unfold device_put in E. apply bind_ok in E as (vs & Ev & E). injection E as <-. unfold device_get, struct in G.
    do 13 apply bind_ok in G as (? & _ & G). apply bind_ok in G as (l & Gl & G). injection G as G.
    assert (El : l = d_peripherals d) by (rewrite <- G; reflexivity). subst l. clear G. seek Gl.
    unfold need, entry in Gl. rewrite seqb_refl in Gl. cbn [has_key existsb] in Gl. cbn [seq_of] in Gl.
    destruct (mapM (ma_get (peripheral_get m')) vs) as [l| |] eqn:El; [|discriminate..]. cbn in Gl. injection Gl as ->.
    destruct A as [p a I|p n a I A]; destruct (mapM_both _ _ _ _ Ev El _ I) as (u & U & V);
      destruct (any_listed _ _ _ _ (peripheral_dimless m) U V) as [(pre & es & X & Y & Z) W].
    - now apply (W p).
    - eapply peripheral_listed; eauto.
  Qed.
End Listed.

(** ** More about the index lists *)
Section Lists.
  Variables (J J' : list string -> Prop) (B : bit_range -> Prop).
  Notation listed x := (forall n a l, x n a -> de_index a = Some l -> J' l) (only parsing).
  Lemma any_lists {A} (P P' : A -> Prop) (x : maybe_array A) : (P (info x) -> P' (info x)) -> (forall i d l, x = Array i d -> de_index d = Some l -> J' l) ->
    any_holds J P x -> any_holds J' P' x.
  Proof.
    destruct x as [i|i d]; cbn; [tauto|]. intros H L (X & Y1 & Y2 & Y3 & Y4). split; [auto|]. repeat (split; [assumption|]). split; [|exact Y4].
    destruct (de_index d) as [l|] eqn:E; [|exact I]. cbn. eapply L; eauto.
  Qed.
  Lemma register_lists r : listed (array_in_register r) -> register_holds J B r -> register_holds J' B r.
  Proof.
    intros M (H1 & H2 & H3 & H4). repeat (split; [assumption|]). destruct (r_fields r) as [fs|] eqn:E; [|exact I]. cbn in *.
    apply Forall_forall. intros f If. rewrite Forall_forall in H4. eapply any_lists; [| |exact (H4 _ If)]; [tauto|].
    intros i d l ->. apply (M (f_name i)). now apply ar_field with fs.
  Qed.
  Lemma rc_lists rc : listed (array_in_rc rc) -> rc_holds J B rc -> rc_holds J' B rc.
  Proof.
    induction rc as [r|c IH] using rc_tree_ind; intros M H; inversion H as [? G|? G K]; subst.
    - constructor. eapply any_lists; [| |exact G].
      + apply register_lists. intros n a l A. apply (M n). now constructor.
      + intros i d l ->. apply (M (r_name i)). exact (ac_register i d).
    - constructor.
      + eapply any_lists; [| |exact G]; [auto|]. intros i d l ->. apply (M (c_name i)). exact (ac_cluster i d).
      + apply Forall_forall. intros rc Ir. rewrite Forall_forall in IH, K. apply IH; auto.
        intros n a l A. apply (M n). eapply ac_child; eassumption.
  Qed.
  Lemma device_lists d : listed (array_in_device d) -> device_holds J B d -> device_holds J' B d.
  Proof.
    intros M (H1 & H2 & H3 & H4 & H5). repeat (split; [assumption|]). apply Forall_forall. intros p Ip. rewrite Forall_forall in H5.
    eapply any_lists; [| |exact (H5 _ Ip)].
    - intros (K1 & K2 & K3 & K4 & K5). repeat (split; [assumption|]).
      destruct (p_registers (info p)) as [rs|] eqn:E; [|exact I]. cbn in *. apply Forall_forall. intros rc Ir. rewrite Forall_forall in K5.
      apply rc_lists; [|auto]. intros n a l A. apply (M n). eapply ad_child; [exact Ip|]. eapply ap_child; eassumption.
    - intros i dd l ->. apply (M (p_name i)). now apply ad_peripheral.
  Qed.
End Lists.
