From Verif Require Import BaseFacts Types TreeFacts SpecArray SpecDerive SpecPath SpecExpand SpecFail Expand PathProofs PlaceProofs ChainProofs MeaningProofs FlatProofs.

Lemma Forall2_find {A B} (R : A -> B -> Prop) l l' a : Forall2 R l l' -> In a l -> exists b, In b l' /\ R a b.
Proof.
  induction 1 as [|x y l l' H F IH]; intros []; [subst; exists y; split; [now left|auto]|].
  destruct (IH H0) as (b & I & Hb). exists b. split; [now right|exact Hb].
Qed.
Lemma origin_none {A} (empty : A -> Prop) x own path : origin empty x [] own path -> path = own.
Proof. intros [(b & y & E & _)|[E _]]; [destruct b; discriminate|exact E]. Qed.

Lemma kept_identity m d p out : peripheral_expanded m d p out -> identity_kept m p out.
Proof.
  intros (chain & p1 & ctx' & rs & _ & G & _ & _ & I). destruct G as (G0 & G1 & G2 & G3 & G4 & _). cbv zeta in *.
  unfold nearest_dims in G0. unfold identity_kept. destruct p as [i|i e]; cbn [dims info] in *.
  - intros No. destruct p1 as [j|j e']; [|destruct G0 as [_ G0]; now specialize (G0 No)].
    cbn in I. subst out. eexists. split; [reflexivity|]. cbn in *. auto.
  - destruct p1 as [j|j e']; [discriminate|]. injection G0 as ->. cbn [mapped instances_of info] in *.
    destruct I as [L I]. split; [exact L|]. intros k Hk. destruct (I k Hk) as (y & Hy & idx & I1 & I2 & _ & _ & I5 & _ & I7 & _).
    cbn in *. exists y, idx. rewrite <- G1, <- G4, <- G3. auto.
Qed.

Section Fail.
  Variables (m : mode) (d d' : device).
  Hypothesis Hex : device_expanded m d d'.
  Lemma peripheral_ok p : In p (d_peripherals d) -> exists out, peripheral_expanded m d p out.
  Proof. intros I. destruct Hex as (_ & groups & F & _). destruct (Forall2_find _ _ _ _ F I) as (o & _ & H). eauto. Qed.
  Lemma child_ok ctx rc : stands d ctx rc -> exists out, child_expanded m d ctx rc out.
  Proof.
    induction 1 as [p rc I N Ir|ctx c rc S [out E] N I].
    - destruct (peripheral_ok p I) as (out & chain & p1 & ctx' & rs & F & G & O & Hr & _).
      rewrite N in F. apply follows_none in F as ->. apply origin_none in O as ->.
      destruct G as (_ & _ & _ & _ & _ & _ & _ & _ & _ & _ & _ & _ & _ & _ & _ & G). cbn in G. apply nearest_one in G.
      rewrite G in Hr. destruct (p_registers (info p)) as [l|]; [|contradiction]. destruct Hr as (groups & Fg & _).
      destruct (Forall2_find _ _ _ _ Fg Ir) as (o & _ & H). eauto.
    - inversion E as [|? ? chain c1 ctx' groups cs outs F G O Fg Ii Fo]; subst.
      unfold follows_clusters in F.
      assert (chain = []) as -> by (eapply follows_none; rewrite <- N; exact F).
      apply origin_none in O as ->.
      destruct G as (_ & _ & _ & _ & _ & _ & _ & _ & G). cbn in G. apply nearest_list_one in G. rewrite G in Fg.
      destruct (Forall2_find _ _ _ _ Fg I) as (o & _ & H). eauto.
  Qed.
  Lemma field_ok ctx f : field_stands d ctx f -> exists out, field_expanded m d ctx f out.
  Proof.
    intros (block & r & -> & S & N & I). destruct (child_ok _ _ S) as (out & E).
    inversion E as [? ? ? (chain & r1 & ctx' & fs & F & G & O & Hf & _)|]; subst.
    rewrite N in F. apply follows_none in F as ->. apply origin_none in O as ->.
    destruct G as (_ & _ & _ & _ & _ & _ & _ & _ & _ & _ & _ & _ & _ & G). cbn in G. apply nearest_one in G.
    rewrite G in Hf. destruct (r_fields (info r)) as [l|]; [|contradiction]. destruct Hf as (groups & Fg & _).
    destruct (Forall2_find _ _ _ _ Fg I) as (o & _ & H). eauto.
  Qed.
  Lemma values_ok ctx e : values_stand d ctx e -> exists e', values_expanded d ctx e e'.
  Proof.
    intros (reg & f & -> & S & N & I). destruct (field_ok _ _ S) as (out & chain & f1 & ctx' & evs & F & G & O & Hf & _).
    rewrite N in F. apply follows_none in F as ->. apply origin_none in O as ->.
    destruct G as (_ & _ & _ & _ & _ & _ & _ & _ & _ & G). cbn in G. apply nearest_list_one in G.
    rewrite G in Hf. destruct (Forall2_find _ _ _ _ Hf I) as (o & _ & H). eauto.
  Qed.
End Fail.
Lemma follows_some {A} (ref : A -> option string) self step ctx s l : follows ref self step ctx (Some s) l ->
  exists path x, step ctx s path x /\ ~ self ctx s path.
Proof. inversion 1; eauto. Qed.

Lemma missing_peripheral m fuel d p s : In p (d_peripherals d) -> p_derived_from (info p) = Some s ->
  (forall q, peripheral_placed d [s] q -> s = p_name (info p)) -> forall d', expand m fuel d <> Ok d'.
Proof.
  intros I D No d' E. apply expand_meaning in E. destruct (peripheral_ok _ _ _ E p I) as (out & chain & p1 & ctx' & rs & F & _).
  rewrite D in F. apply follows_some in F as (path & x & (-> & P) & Ns). exact (Ns (No _ P)).
Qed.
Lemma missing_cluster m fuel d ctx (c : cluster) s : stands d ctx (RCCluster c) -> c_derived_from (info c) = Some s ->
  (forall path q, resolves ctx s path -> cluster_placed d path q -> path = ctx ++ [c_name (info c)]) ->
  forall d', expand m fuel d <> Ok d'.
Proof.
  intros I D No d' E. apply expand_meaning in E. destruct (child_ok _ _ _ E _ _ I) as (out & X).
  inversion X as [|? ? chain c1 ctx' groups cs outs F _ _ _ _ _]; subst.
  unfold follows_clusters in F. revert F. generalize D.
  match goal with |- _ -> follows _ _ _ _ ?o _ -> _ => change o with (c_derived_from (info c)) end. intros -> F.
  apply follows_some in F as (path & x & (R & P) & Ns). exact (Ns (No _ _ R P)).
Qed.
Lemma missing_register m fuel d ctx r s : stands d ctx (RCRegister r) -> r_derived_from (info r) = Some s ->
  (forall path q, resolves ctx s path -> register_placed d path q -> path = ctx ++ [r_name (info r)]) ->
  forall d', expand m fuel d <> Ok d'.
Proof.
  intros I D No d' E. apply expand_meaning in E. destruct (child_ok _ _ _ E _ _ I) as (out & X).
  inversion X as [? ? ? (chain & r1 & ctx' & fs & F & _)|]; subst.
  rewrite D in F. apply follows_some in F as (path & x & (R & P) & Ns). exact (Ns (No _ _ R P)).
Qed.
Lemma missing_field m fuel d ctx f s : field_stands d ctx f -> f_derived_from (info f) = Some s ->
  (forall path q, resolves ctx s path -> field_placed d path q -> path = ctx ++ [f_name (info f)]) ->
  forall d', expand m fuel d <> Ok d'.
Proof.
  intros I D No d' E. apply expand_meaning in E. destruct (field_ok _ _ _ E _ _ I) as (out & chain & f1 & ctx' & evs & F & _).
  rewrite D in F. apply follows_some in F as (path & x & (R & P) & Ns). exact (Ns (No _ _ R P)).
Qed.
Lemma missing_values m fuel d ctx e s : values_stand d ctx e -> evs_derived_from e = Some s ->
  (evs_name e = Some s \/
   forall path q, resolves_values d ctx s path -> values_placed d path q ->
     exists n, evs_name e = Some n /\ path = ctx ++ [n]) ->
  forall d', expand m fuel d <> Ok d'.
Proof.
  intros I D No d' E. apply expand_meaning in E. destruct (values_ok _ _ _ E _ _ I) as (e' & chain & F & _).
  rewrite D in F. apply follows_some in F as (path & x & (R & P) & Ns). apply Ns.
  destruct No as [No|No]; [exists s; auto|]. destruct (No _ _ R P) as (n & En & Ep). exists n. auto.
Qed.
