From Verif Require Import BaseFacts Types TreeFacts SpecArray SpecDerive SpecExpand SpecEnds.

Section Generic.
  Context {A : Type}.
  Variables (placed : list string -> A -> Prop) (ref : A -> option string) (means : string -> list string -> Prop)
            (rank : A -> nat) (self : list string -> string -> list string -> Prop)
            (step : list string -> string -> list string -> A -> Prop).
  Hypothesis Hn : numbered placed ref means rank.
  Hypothesis Hs : forall ctx s path x, step ctx s path x -> placed path x /\ means s path.
  Lemma ends_numbered path x ctx : placed path x -> ends ref step ctx (ref x).
  Proof.
    remember (rank x) as n eqn:E. revert path x ctx E. induction n as [n IH] using lt_wf_ind. intros path x ctx -> P.
    destruct (ref x) as [s|] eqn:R; constructor. intros path' y St. apply Hs in St as [P' M].
    eapply IH; [|reflexivity|exact P']. eapply Hn; eauto.
  Qed.
  Lemma chain_placed ctx o chain : follows ref self step ctx o chain -> Forall (fun x => exists path, placed path x) (paths chain).
  Proof. induction 1 as [|ctx s path x l St _ F IH]; constructor; [apply Hs in St as [P _]; eauto|exact IH]. Qed.
  Lemma chain_below ctx o chain : follows ref self step ctx o chain -> forall path x, placed path x -> ref x = o ->
    Forall (fun y => (rank y < rank x)%nat) (paths chain).
  Proof.
    induction 1 as [|ctx s path x l St _ F IH]; intros path0 x0 P0 R; constructor; apply Hs in St as [P M]; cbn [snd].
    - eapply Hn; eauto.
    - eapply Forall_impl; [|eapply IH; [exact P|reflexivity]]. cbv beta. intros y L.
      assert (rank x < rank x0)%nat by (eapply Hn; eauto). lia.
  Qed.
End Generic.
Lemma nearest_source {A B} (get : A -> option B) l v : nearest get l (Some v) -> exists x, In x l /\ get x = Some v.
Proof.
  induction l as [|a l IH]; cbn [nearest]; [discriminate|]. intros [(b & E & [= ->])|[_ H]].
  - exists a. split; [now left|exact E].
  - destruct (IH H) as (x & I & E). exists x. split; [now right|exact E].
Qed.
Lemma nearest_list_source {A B} (get : A -> list B) l v : nearest_list get l v -> v = [] \/ exists x, In x l /\ get x = v.
Proof.
  induction l as [|a l IH]; cbn [nearest_list]; [auto|]. intros [[_ ->]|[_ H]].
  - right. exists a. split; [now left|reflexivity].
  - destruct (IH H) as [->|(x & I & E)]; [auto|]. right. exists x. split; [now right|exact E].
Qed.
Lemma resolves_mean ctx s path : resolves ctx s path -> may_mean s path.
Proof. intros (parts & C & [(n & -> & ->)|[L ->]]); eexists; (split; [exact C|]); [left; eauto|right; auto]. Qed.
Lemma resolves_values_mean d ctx s path : resolves_values d ctx s path -> may_mean_values s path.
Proof.
  intros (parts & C & H). cbv zeta in H. destruct parts as [|a [|b [|c [|e l]]]].
  - subst. exists [], []. auto.
  - destruct H as (r & f & _ & _ & ->). exists [a], (removelast ctx ++ [f_name (info f)]). rewrite <- app_assoc. auto.
  - subst. eexists _, _. split; [exact C|reflexivity].
  - subst. eexists _, _. split; [exact C|reflexivity].
  - subst. exists (a :: b :: c :: e :: l), []. auto.
Qed.

Section Rank.
  Variable d : device.
  Hypothesis Ac : acyclic d.
  (** A child somewhere in the device. *)
  Definition inside (rc : register_cluster) : Prop := exists block kids, children_placed d block kids /\ In rc kids.
  Lemma register_inside r : inside (RCRegister r) -> exists path, register_placed d path r.
  Proof. intros (b & kids & C & I). exists (b ++ [r_name (info r)]), b, (r_name (info r)), kids. conjs; auto. now left. Qed.
  Lemma cluster_inside c : inside (RCCluster c) -> exists path, cluster_placed d path c.
  Proof.
    intros (b & kids & C & I). exists (b ++ [c_name (info c)]), b, (c_name (info c)), kids. conjs; auto.
    match goal with |- is_called _ _ _ => now left end.
  Qed.
  Lemma children_inside path c rc : cluster_placed d path c -> In rc (c_children (info c)) -> inside rc.
  Proof. intros (b & n & kids & -> & C & I & Nm) Ir. exists (b ++ [n]), (c_children (info c)). split; [|exact Ir]. econstructor; eauto. Qed.
  Lemma fields_placed path r f : register_placed d path r -> In f (or_empty (r_fields (info r))) -> exists p, field_placed d p f.
  Proof. intros P I. exists (path ++ [f_name (info f)]), path, (f_name (info f)), r. conjs; auto. now left. Qed.

  Lemma values_rank ctx path f e : field_placed d path f -> In e (f_enumerated_values (info f)) -> values_end d ctx e.
  Proof.
    intros P I. destruct Ac as (_ & _ & _ & _ & rank & Hn). unfold values_end.
    destruct (evs_derived_from e) as [s|] eqn:D; [|constructor]. constructor. intros p x [R Px].
    eapply (ends_numbered (values_placed d) evs_derived_from may_mean_values rank); [exact Hn| |exact Px].
    intros c s' p' y [R' P']. split; [exact P'|eapply resolves_values_mean; exact R'].
  Qed.
  Lemma field_rank ctx path f : field_placed d path f -> field_ends d ctx f.
  Proof.
    intros P. destruct Ac as (_ & _ & _ & (rank & Hn) & _). 
    assert (St : forall (ctx : list string) (s : string) (path : list string) (x : field),
      resolves ctx s path /\ field_placed d path x -> field_placed d path x /\ may_mean s path)
      by (intros ? ? ? ? [R Q]; split; [exact Q|eapply resolves_mean; exact R]).
    split.
    - eapply (ends_numbered (field_placed d) (fun f => f_derived_from (info f)) may_mean rank); [exact Hn|exact St|exact P].
    - intros chain f1 ctx' F G _. destruct G as (_ & _ & _ & _ & _ & _ & _ & _ & _ & G). cbv zeta in G.
      apply nearest_list_source in G as [->|(x & I & E)]; [constructor|]. rewrite <- E.
      apply in_map_iff in I as (y & <- & Iy). apply Forall_forall. intros e Ie.
      assert (Py : exists p, field_placed d p y).
      { destruct Iy as [<-|Iy]; [eauto|]. pose proof (chain_placed _ _ _ _ _ St _ _ _ F) as H.
        rewrite Forall_forall in H. auto. }
      destruct Py as [p Py]. eapply values_rank; eauto.
  Qed.
  Lemma register_rank ctx path r : register_placed d path r -> register_ends d ctx r.
  Proof.
    intros P. destruct Ac as (_ & _ & (rank & Hn) & _). 
    assert (St : forall (ctx : list string) (s : string) (path : list string) (x : register),
      resolves ctx s path /\ register_placed d path x -> register_placed d path x /\ may_mean s path)
      by (intros ? ? ? ? [R Q]; split; [exact Q|eapply resolves_mean; exact R]).
    split.
    - eapply (ends_numbered (register_placed d) (fun f => r_derived_from (info f)) may_mean rank); [exact Hn|exact St|exact P].
    - intros chain r1 ctx' F G _. destruct G as (_ & _ & _ & _ & _ & _ & _ & _ & _ & _ & _ & _ & _ & G). cbv zeta in G.
      destruct (r_fields (info r1)) as [fs|]; [|constructor]. apply nearest_source in G as (x & I & E).
      apply in_map_iff in I as (y & <- & Iy). apply Forall_forall. intros f If. cbn [or_empty] in If.
      assert (Py : exists p, register_placed d p y).
      { destruct Iy as [<-|Iy]; [eauto|]. pose proof (chain_placed _ _ _ _ _ St _ _ _ F) as H.
        rewrite Forall_forall in H. auto. }
      destruct Py as [p Py]. destruct (fields_placed _ _ f Py) as [q Q]; [rewrite E; exact If|]. eapply field_rank; eauto.
  Qed.
  Lemma child_rank rc ctx : inside rc -> child_ends d ctx rc.
  Proof.
    destruct Ac as (_ & (rank & Hn & Hk) & _).
    assert (St : forall (ctx : list string) (s : string) (path : list string) (x : cluster),
      resolves ctx s path /\ cluster_placed d path x -> cluster_placed d path x /\ may_mean s path)
      by (intros ? ? ? ? [R Q]; split; [exact Q|eapply resolves_mean; exact R]).
    assert (X : forall n (c : cluster) ctx, rank c = n -> inside (RCCluster c) -> child_ends d ctx (RCCluster c)).
    { induction n as [n IH] using lt_wf_ind. clear rc ctx. intros c ctx En In_. pose proof (cluster_inside _ In_) as [path P]. constructor.
      - eapply (ends_numbered (cluster_placed d) (fun f : cluster => c_derived_from (info f)) may_mean rank); [exact Hn|exact St|exact P].
      - intros chain c1 ctx' F G _ rc Irc. destruct G as (_ & _ & _ & _ & _ & _ & _ & _ & G). cbv zeta in G.
        apply nearest_list_source in G as [G|(x & I & E)]; [rewrite G in Irc; destruct Irc|]. rewrite <- E in Irc.
        apply in_map_iff in I as (y & <- & Iy).
        assert (Py : (exists p, cluster_placed d p y) /\ (rank y <= n)%nat).
        { destruct Iy as [<-|Iy]; [split; [eauto|lia]|]. pose proof (chain_placed _ _ _ _ _ St _ _ _ F) as H.
          pose proof (chain_below _ _ _ _ _ _ Hn St _ _ _ F path c P eq_refl) as L.
          rewrite Forall_forall in H, L. specialize (L _ Iy). split; [auto|lia]. }
        destruct Py as [[p Py] L]. pose proof (children_inside _ _ _ Py Irc) as Ii.
        destruct rc as [r|c2].
        + constructor. destruct (register_inside _ Ii) as [q Q]. eapply register_rank; eauto.
        + eapply IH; [|reflexivity|exact Ii]. specialize (Hk _ _ _ Py Irc). lia. }
    intros In_. destruct rc as [r|c]; [|eapply X; eauto].
    constructor. destruct (register_inside _ In_) as [q Q]. eapply register_rank; eauto.
  Qed.
  Lemma acyclic_ends : device_ends d.
  Proof.
    destruct Ac as ((rank & Hn) & _).
    assert (St : forall (ctx : list string) (s : string) (path : list string) (x : peripheral),
      path = [s] /\ peripheral_placed d path x -> peripheral_placed d path x /\ path = [s])
      by (intros ? ? ? ? [R Q]; split; [exact Q|exact R]).
    apply Forall_forall. intros p I.
    assert (P : peripheral_placed d [p_name (info p)] p) by (exists (p_name (info p)); conjs; auto; now left).
    split.
    - eapply (ends_numbered (peripheral_placed d) (fun f => p_derived_from (info f)) (fun s path => path = [s]) rank); [exact Hn|exact St|exact P].
    - intros chain p1 ctx' F G _. destruct G as (_ & _ & _ & _ & _ & _ & _ & _ & _ & _ & _ & _ & _ & _ & _ & G). cbv zeta in G.
      destruct (p_registers (info p1)) as [fs|]; [|constructor]. apply nearest_source in G as (x & Ix & E).
      apply in_map_iff in Ix as (y & <- & Iy). apply Forall_forall. intros rc Irc. cbn [or_empty] in Irc. apply child_rank.
      assert (Py : exists p, peripheral_placed d p y).
      { destruct Iy as [<-|Iy]; [eauto|]. pose proof (chain_placed _ _ _ _ _ St _ _ _ F) as H.
        rewrite Forall_forall in H. auto. }
      destruct Py as [q Py]. exists q, (or_empty (p_registers (info y))). split; [constructor; exact Py|]. rewrite E. exact Irc.
  Qed.
End Rank.
