(** Proofs for C38: how much depth is enough. *)
From Coq Require Import Lia.
From Verif Require Import BaseFacts Types Arrays TreeFacts SpecArray SpecDerive SpecPath SpecExpand SpecEnds SpecBound Expand PathProofs
  ExpandProofs PlaceProofs ChainProofs MeaningProofs FlatProofs EndProofs RankProofs.

Definition by_ {A} (n : nat) (f : nat -> res A) : Prop :=
  exists r, r <> Panic OutOfFuel /\ forall k, (n <= k)%nat -> f k = r.
Lemma by_const {A} n (a : res A) : a <> Panic OutOfFuel -> by_ n (fun _ => a).
Proof. intros H. exists a. auto. Qed.
Lemma by_more {A} n n' (f : nat -> res A) : (n <= n')%nat -> by_ n f -> by_ n' f.
Proof. intros L (r & N & H). exists r. split; [exact N|]. intros k L'. apply H. lia. Qed.
Lemma by_bind {A B} n (f : nat -> res A) (g : nat -> A -> res B) : by_ n f ->
  (forall x k, f k = Ok x -> by_ n (fun k => g k x)) -> by_ n (fun k => bind (f k) (g k)).
Proof.
  intros (r & N & H) G. destruct r as [x|e|p].
  - destruct (G x n (H n (le_n _))) as (r1 & N1 & H1). exists r1. split; [exact N1|]. intros k L. rewrite H by lia. cbn. now apply H1.
  - exists (Err e). split; [discriminate|]. intros k L. now rewrite H by lia.
  - exists (Panic p). split; [congruence|]. intros k L. now rewrite H by lia.
Qed.
Lemma by_concatM {A B} n (f : nat -> A -> res (list B)) l : (forall x, In x l -> by_ n (fun k => f k x)) ->
  by_ n (fun k => concatM (f k) l).
Proof.
  induction l as [|x l IH]; intros H; [apply (by_const n (Ok [])); discriminate|]. cbn [concatM].
  apply (by_bind n (fun k => f k x)); [apply H; now left|]. intros y _ _.
  apply (by_bind n (fun k => concatM (f k) l)); [apply IH; intros; apply H; now right|]. intros z _ _. apply by_const. discriminate.
Qed.
Lemma by_mapM {A B} n (f : nat -> A -> res B) l : (forall x, In x l -> by_ n (fun k => f k x)) ->
  by_ n (fun k => mapM (f k) l).
Proof.
  induction l as [|x l IH]; intros H; [apply (by_const n (Ok [])); discriminate|]. cbn [mapM].
  apply (by_bind n (fun k => f k x)); [apply H; now left|]. intros y _ _.
  apply (by_bind n (fun k => mapM (f k) l)); [apply IH; intros; apply H; now right|]. intros z _ _. apply by_const. discriminate.
Qed.
Lemma by_S {A} n (f g : nat -> res A) : (forall k, g (S k) = f k) -> by_ n f -> by_ (S n) g.
Proof. intros E (r & N & H). exists r. split; [exact N|]. intros [|k'] L; [lia|]. rewrite E. apply H. lia. Qed.

Section Bound.
  Variables (m : mode) (d : device) (ix : index) (P C K : nat).
  Hypothesis Hix : index_create d = Ok ix.
  Variables (rp : peripheral -> nat) (rc_ : cluster -> nat) (rr : register -> nat) (rf : field -> nat) (rv : enumerated_values -> nat).
  Hypothesis Hp : numbered_to P (peripheral_placed d) (fun p => p_derived_from (info p)) (fun s path => path = [s]) rp.
  Hypothesis Hc : numbered_to C (cluster_placed d) (fun c => c_derived_from (info c)) may_mean rc_.
  Hypothesis Hk : forall path c x, cluster_placed d path c -> In (RCCluster x) (c_children (info c)) -> (rc_ x < rc_ c)%nat.
  Hypothesis Hr : numbered_to K (register_placed d) (fun r => r_derived_from (info r)) may_mean rr.
  Hypothesis Hf : numbered_to K (field_placed d) (fun f => f_derived_from (info f)) may_mean rf.
  Hypothesis Hv : numbered_to K (values_placed d) evs_derived_from may_mean_values rv.

  Lemma derive_peripheral_by n : forall s, (forall path x, peripheral_placed d path x -> path = [s] -> (rp x < n)%nat) ->
    forall p, by_ (S n) (fun k => derive_peripheral ix k p s).
  Proof using All.
    induction n as [n IH] using lt_wf_ind; intros s H p.
    eapply by_S; [intros k; cbn [derive_peripheral]; reflexivity|].
    destruct (seqb s _); [apply by_const; discriminate|].
    destruct (ix_peripheral ix (bp_new s)) as [x|] eqn:E; cbn [ok_or bind]; [|apply by_const; discriminate].
    apply (ix_peripheral_sound d ix Hix) in E. change (block_parts (bp_new s)) with [s] in E.
    destruct (p_derived_from (info x)) as [s'|] eqn:D; [|apply by_const; discriminate].
    pose proof (H _ x E eq_refl) as L. destruct n as [|n]; [lia|]. apply IH; [lia|].
    intros path y Y M. pose proof (proj1 Hp _ x s' _ y E D Y M). lia.
  Qed.
  Lemma derive_cluster_by n : forall s b, (forall path x, cluster_placed d path x -> may_mean s path -> (rc_ x < n)%nat) ->
    forall p, by_ (S n) (fun k => derive_cluster ix k p s b).
  Proof using All.
    induction n as [n IH] using lt_wf_ind; intros s b H p.
    eapply by_S; [intros k; cbn [derive_cluster]; reflexivity|].
    destruct (bp_parse_str s) as [[oq n0]| |] eqn:Hq; cbn [bind fst snd]; [|apply by_const; discriminate|destruct (bp_parse_str_total s) as (? & ? & ?); congruence].
    destruct (_ && _); [apply by_const; discriminate|].
    destruct (ix_cluster ix _) as [x|] eqn:E; cbn [ok_or bind]; [|apply by_const; discriminate].
    apply (ix_cluster_sound d ix Hix) in E.
    change (block_parts (new_cluster (opt_default b oq) n0)) with (block_parts (opt_default b oq) ++ [n0]) in E.
    pose proof (resolves_block _ _ _ b Hq) as R0. apply resolves_mean in R0.
    destruct (c_derived_from (info x)) as [s'|] eqn:D; [|apply by_const; discriminate].
    pose proof (H _ x E R0) as L. destruct n as [|n]; [lia|]. apply IH; [lia|].
    intros path y Y M. pose proof (proj1 Hc _ x s' _ y E D Y M). lia.
  Qed.
  Lemma derive_register_by n : forall s b, (forall path x, register_placed d path x -> may_mean s path -> (rr x < n)%nat) ->
    forall p, by_ (S n) (fun k => derive_register ix k p s b).
  Proof using All.
    induction n as [n IH] using lt_wf_ind; intros s b H p.
    eapply by_S; [intros k; cbn [derive_register]; reflexivity|].
    destruct (bp_parse_str s) as [[oq n0]| |] eqn:Hq; cbn [bind fst snd]; [|apply by_const; discriminate|destruct (bp_parse_str_total s) as (? & ? & ?); congruence].
    destruct (_ && _); [apply by_const; discriminate|].
    destruct (ix_register ix _) as [x|] eqn:E; cbn [ok_or bind]; [|apply by_const; discriminate].
    apply (ix_register_sound d ix Hix) in E.
    change (register_parts (new_register (opt_default b oq) n0)) with (block_parts (opt_default b oq) ++ [n0]) in E.
    pose proof (resolves_block _ _ _ b Hq) as R0. apply resolves_mean in R0.
    destruct (r_derived_from (info x)) as [s'|] eqn:D; [|apply by_const; discriminate].
    pose proof (H _ x E R0) as L. destruct n as [|n]; [lia|]. apply IH; [lia|].
    intros path y Y M. pose proof (proj1 Hr _ x s' _ y E D Y M). lia.
  Qed.
  Lemma derive_field_by n : forall s b, (forall path x, field_placed d path x -> may_mean s path -> (rf x < n)%nat) ->
    forall p, by_ (S n) (fun k => derive_field ix k p s b).
  Proof using All.
    induction n as [n IH] using lt_wf_ind; intros s b H p.
    eapply by_S; [intros k; cbn [derive_field]; reflexivity|].
    destruct (fp_parse_str s) as [[oq n0]| |pp] eqn:Hq; cbn [bind fst snd]; [|apply by_const; discriminate|].
    2: { apply by_const. pose proof (dry_fp_parse s) as Dr. rewrite Hq in Dr. intros [= ->]. now apply Dr. }
    destruct (_ && _); [apply by_const; discriminate|].
    destruct (ix_field ix _) as [x|] eqn:E; cbn [ok_or bind]; [|apply by_const; discriminate].
    apply (ix_field_sound d ix Hix) in E.
    change (field_parts (new_field (opt_default b oq) n0)) with (register_parts (opt_default b oq) ++ [n0]) in E.
    pose proof (resolves_register _ _ _ b Hq) as R0. apply resolves_mean in R0.
    destruct (f_derived_from (info x)) as [s'|] eqn:D; [|apply by_const; discriminate].
    pose proof (H _ x E R0) as L. destruct n as [|n]; [lia|]. apply IH; [lia|].
    intros path y Y M. pose proof (proj1 Hf _ x s' _ y E D Y M). lia.
  Qed.
  Lemma derive_enum_by n : forall s b, (forall path x, values_placed d path x -> may_mean_values s path -> (rv x < n)%nat) ->
    forall p, by_ (S n) (fun k => derive_enum ix k p s b).
  Proof using All.
    induction n as [n IH] using lt_wf_ind; intros s b H p.
    eapply by_S; [intros k; cbn [derive_enum]; reflexivity|].
    destruct (is_name s (evs_name p)) eqn:Es; [apply by_const; discriminate|].
    destruct (pop (split "." s)) as [[init n0]|] eqn:Ep; cbn [unwrap bind fst snd]; [|apply by_const; discriminate].
    apply pop_spec in Ep.
    apply by_bind.
    - apply by_const. destruct (pop init) as [[v fd]|]; [|discriminate].
      apply (dry_bind (if is_nil v then _ else _)).
      + destruct (is_nil v); dry.
      + intros x. destruct (_ && _); discriminate.
    - intros [[x q']|] _ Ef; [|apply by_const; discriminate].
      destruct (enum_found d ix Hix _ _ _ _ _ _ _ Es Ep Ef) as (R0 & Hx & _). apply (ix_enum_sound d ix Hix) in Hx.
      apply resolves_values_mean in R0.
      destruct (evs_derived_from x) as [s'|] eqn:D; [|apply by_const; discriminate].
      pose proof (H _ x Hx R0) as L. destruct n as [|n]; [lia|]. apply IH; [lia|].
      intros path y Y M. pose proof (proj1 Hv _ x s' _ y Hx D Y M). lia.
  Qed.

  (** A set of values without a name is in no path; what it refers to is. *)
  Lemma expand_enum_in fp path f e : field_placed d path f -> In e (f_enumerated_values (info f)) -> by_ (S (S K)) (fun k => expand_enum ix k fp e).
  Proof using All.
    unfold expand_enum. intros I J. destruct (evs_derived_from e) as [s|] eqn:E; [|apply by_const; discriminate].
    apply (by_bind _ (fun k => derive_enum ix k (evs_underive e) s fp)).
    - apply derive_enum_by. intros p x X M. pose proof (proj2 Hv _ _ X). lia.
    - intros; apply by_const; discriminate.
  Qed.
  Lemma expand_field_by rp_ path f : field_placed d path f -> by_ (S (S K)) (fun k => expand_field m ix k rp_ f).
  Proof using All.
    intros I. unfold expand_field.
    apply (by_bind _ (fun k => match f_derived_from (info f) with
              | Some dpath => derive_field ix k (ma_map f_underive f) dpath rp_
              | None => Ok (f, None)
              end)).
    - destruct (f_derived_from (info f)) as [s|] eqn:E; [|apply by_const; discriminate]. apply derive_field_by.
      intros p x X M. pose proof (proj2 Hf _ _ X). lia.
    - intros [f1 o] k Hq. cbn [fst snd]. cbv zeta.
      assert (Q : exists chain, follows_fields d (f_name (info f)) (register_parts rp_) (f_derived_from (info f)) chain /\
        field_from f (paths chain) f1).
      { destruct (f_derived_from (info f)) as [s|] eqn:E.
        - apply (derive_field_chain d ix Hix) in Hq as (chain & F & G & R); [|destruct f; reflexivity].
          exists chain. assert (X : info (ma_map f_underive f) = f_underive (info f)) by (destruct f; reflexivity).
          rewrite X in F. split; [exact F|]. destruct f; exact G.
        - injection Hq as <- <-. exists []. split; [constructor|now apply field_from_self]. }
      destruct Q as (chain & F & G).
      apply (by_bind _ (fun k => mapM (expand_enum ix k _) (f_enumerated_values (info f1)))).
      + apply by_mapM. intros e Ie. destruct G as (_ & _ & _ & _ & _ & _ & _ & _ & _ & G). cbv zeta in G.
        apply nearest_list_source in G as [G|(x & Ix & E)]; [rewrite G in Ie; destruct Ie|]. rewrite <- E in Ie.
        apply in_map_iff in Ix as (y & <- & Iy).
        assert (Py : exists p, field_placed d p y).
        { destruct Iy as [<-|Iy]; [eauto|].
          assert (St : forall (ctx : list string) (s : string) (path : list string) (x : field),
            resolves ctx s path /\ field_placed d path x -> field_placed d path x /\ may_mean s path)
            by (intros ? ? ? ? [R Q]; split; [exact Q|eapply resolves_mean; exact R]).
          pose proof (chain_placed _ _ _ _ _ St _ _ _ F) as X. rewrite Forall_forall in X. auto. }
        destruct Py as [p Py]. eapply expand_enum_in; eauto.
      + intros evs _ _. apply by_const. destruct f1; cbn [ma_map]; [discriminate|].
        unfold field_expand, field_instance, offset_at, mul32, add32. dry.
  Qed.
  Lemma expand_register_by b path r : register_placed d path r -> by_ (S (S K)) (fun k => expand_register_array m ix k b r).
  Proof using All.
    intros I. unfold expand_register_array.
    apply (by_bind _ (fun k => match r_derived_from (info r) with
              | Some dpath => derive_register ix k (ma_map r_underive r) dpath b
              | None => Ok (r, None)
              end)).
    - destruct (r_derived_from (info r)) as [s|] eqn:E; [|apply by_const; discriminate]. apply derive_register_by.
      intros p x X M. pose proof (proj2 Hr _ _ X). lia.
    - intros [r1 o] k Hq. cbn [fst snd]. cbv zeta.
      assert (Q : exists chain, follows_registers d (r_name (info r)) (block_parts b) (r_derived_from (info r)) chain /\
        register_from r (paths chain) r1).
      { destruct (r_derived_from (info r)) as [s|] eqn:E.
        - apply (derive_register_chain d ix Hix) in Hq as (chain & F & G & R); [|destruct r; reflexivity].
          exists chain. assert (X : info (ma_map r_underive r) = r_underive (info r)) by (destruct r; reflexivity).
          rewrite X in F. split; [exact F|]. destruct r; exact G.
        - injection Hq as <- <-. exists []. split; [constructor|now apply register_from_self]. }
      destruct Q as (chain & F & G).
      apply (by_bind _ (fun k => match r_fields (info r1) with
              | Some fs => let* l := concatM (expand_field m ix k (opt_default (new_register b (r_name (info r1))) o)) fs in
                           Ok (ma_map (fun i => r_set_fields i l) r1)
              | None => Ok r1
              end)).
      + destruct G as (_ & _ & _ & _ & _ & _ & _ & _ & _ & _ & _ & _ & _ & G). cbv zeta in G.
        destruct (r_fields (info r1)) as [fs|]; [|apply by_const; discriminate].
        apply nearest_source in G as (x & Ix & E). apply in_map_iff in Ix as (y & <- & Iy).
        apply (by_bind _ (fun k => concatM (expand_field m ix k _) fs)); [|intros; apply by_const; discriminate].
        apply by_concatM. intros f If.
        assert (Py : exists p, register_placed d p y).
        { destruct Iy as [<-|Iy]; [eauto|].
          assert (St : forall (ctx : list string) (s : string) (path : list string) (x : register),
            resolves ctx s path /\ register_placed d path x -> register_placed d path x /\ may_mean s path)
            by (intros ? ? ? ? [R Q]; split; [exact Q|eapply resolves_mean; exact R]).
          pose proof (chain_placed _ _ _ _ _ St _ _ _ F) as X. rewrite Forall_forall in X. auto. }
        destruct Py as [p Py]. destruct (fields_placed d _ _ f Py) as [q Q]; [rewrite E; exact If|]. eapply expand_field_by; eauto.
      + intros r2 _ _. apply by_const. destruct r2; [discriminate|].
        unfold register_expand, register_instance, offset_at, mul32, add32. dry.
  Qed.
  Lemma expand_inside_by b r : inside d (RCRegister r) -> by_ (S (S (S K))) (fun k => expand_rc m ix k b (RCRegister r)).
  Proof using All.
    intros I. destruct (register_inside d _ I) as [q Q]. eapply by_S; [intros k; cbn [expand_rc]; reflexivity|]. eapply expand_register_by; eauto.
  Qed.
  Lemma expand_cluster_by n : forall (c : cluster) b, (rc_ c <= n)%nat -> inside d (RCCluster c) -> by_ (S (S (S (S (K + n))))) (fun k => expand_rc m ix k b (RCCluster c)).
  Proof using All.
    induction n as [n IH] using lt_wf_ind; intros c b L In_. pose proof (cluster_inside d _ In_) as [path Pc].
    eapply by_S; [intros k; cbn [expand_rc]; reflexivity|].
    apply (by_bind _ (fun k => match c_derived_from (info c) with
            | Some dpath => derive_cluster ix k (ma_map (fun i => c_with i (c_children i) None) c) dpath b
            | None => Ok (c, None)
            end)).
    - destruct (c_derived_from (info c)) as [s|] eqn:E; [|apply by_const; discriminate]. apply (by_more (S n)); [lia|]. apply derive_cluster_by.
      intros p x X M. pose proof (proj1 Hc _ c s _ x Pc E X M). lia.
    - intros [c1 o] k Hq. cbn [fst snd]. cbv zeta.
      assert (Q : exists chain, follows_clusters d (c_name (info c)) (block_parts b) (c_derived_from (info c)) chain /\
        cluster_from c (paths chain) c1).
      { destruct (c_derived_from (info c)) as [s|] eqn:E.
        - apply (derive_cluster_chain d ix Hix) in Hq as (chain & F & G & R); [|destruct c; reflexivity].
          exists chain. split; [destruct c; exact F|destruct c; exact G].
        - injection Hq as <- <-. exists []. split; [constructor|now apply cluster_from_self]. }
      destruct Q as (chain & F & G).
      apply (by_bind _ (fun k => concatM (expand_rc m ix k _) (c_children (info c1)))).
      + apply by_concatM. intros rc Irc. destruct G as (_ & _ & _ & _ & _ & _ & _ & _ & G). cbv zeta in G.
        apply nearest_list_source in G as [G|(x & I & E)]; [rewrite G in Irc; destruct Irc|]. rewrite <- E in Irc.
        apply in_map_iff in I as (y & <- & Iy).
        assert (Py : (exists p, cluster_placed d p y) /\ (rc_ y <= n)%nat).
        { destruct Iy as [<-|Iy]; [split; [eauto|lia]|].
          assert (St : forall (ctx : list string) (s : string) (path : list string) (x : cluster),
            resolves ctx s path /\ cluster_placed d path x -> cluster_placed d path x /\ may_mean s path)
            by (intros ? ? ? ? [R Q]; split; [exact Q|eapply resolves_mean; exact R]).
          pose proof (chain_placed _ _ _ _ _ St _ _ _ F) as X.
          pose proof (chain_below _ _ _ _ _ _ (proj1 Hc) St _ _ _ F path c Pc eq_refl) as B.
          rewrite Forall_forall in X, B. specialize (B _ Iy). split; [auto|lia]. }
        destruct Py as [[p Py] Ly]. pose proof (children_inside d _ _ _ Py Irc) as Ii.
        destruct rc as [r|c2].
        * apply (by_more (S (S (S K)))); [lia|]. now apply expand_inside_by.
        * pose proof (Hk _ _ _ Py Irc). apply (by_more (S (S (S (S (K + rc_ c2)))))); [lia|]. apply IH; [lia|lia|exact Ii].
      + intros kids _ _. apply by_const. destruct c1; cbn [ma_map]; [apply expand_cluster_dry|].
        apply dry_concatM. intros n0. apply dry_bind; [unfold cluster_instance, offset_at, mul32, add32; dry|]. intros x. apply expand_cluster_dry.
  Qed.
  Lemma expand_rc_by b rc : inside d rc -> by_ (S (S (S (S (K + C))))) (fun k => expand_rc m ix k b rc).
  Proof using All.
    intros I. destruct rc as [r|c].
    - apply (by_more (S (S (S K)))); [lia|]. now apply expand_inside_by.
    - apply expand_cluster_by; [|exact I]. destruct (cluster_inside d _ I) as [path Pc]. exact (proj2 Hc _ _ Pc).
  Qed.
  Lemma expand_peripheral_by n p : (P < n)%nat -> (K + C + 4 <= n)%nat -> In p (d_peripherals d) -> by_ n (fun k => expand_peripheral m ix k p).
  Proof using All.
    intros LP LC I. unfold expand_peripheral.
    assert (Pl : peripheral_placed d [p_name (info p)] p) by (exists (p_name (info p)); conjs; auto; now left).
    apply (by_bind _ (fun k => match p_derived_from (info p) with
              | Some dpath => derive_peripheral ix k (ma_map (fun i => p_with i (p_registers i) None) p) dpath
              | None => Ok (p, None)
              end)).
    - destruct (p_derived_from (info p)) as [s|] eqn:E; [|apply by_const; discriminate]. apply (by_more (S P)); [lia|]. apply derive_peripheral_by.
      intros q x X M. pose proof (proj1 Hp _ p s _ x Pl E X M). pose proof (proj2 Hp _ _ Pl). lia.
    - intros [r1 o] k Hq. cbn [fst snd]. cbv zeta.
      assert (Q : exists chain, follows_peripherals d (p_name (info p)) [] (p_derived_from (info p)) chain /\
        peripheral_from p (paths chain) r1).
      { destruct (p_derived_from (info p)) as [s|] eqn:E.
        - apply (derive_peripheral_chain d ix Hix) in Hq as (chain & Hq); [|destruct p; reflexivity].
          destruct (Hq []) as (F & G & R). exists chain. split; [destruct p; exact F|destruct p; exact G].
        - injection Hq as <- <-. exists []. split; [constructor|now apply peripheral_from_self]. }
      destruct Q as (chain & F & G).
      apply (by_bind _ (fun k => match p_registers (info r1) with
              | Some rs => let* l := concatM (expand_rc m ix k (opt_default (bp_new (p_name (info r1))) o)) rs in
                           Ok (ma_map (fun i => p_with i (Some l) (p_derived_from i)) r1)
              | None => Ok r1
              end)).
      + destruct G as (_ & _ & _ & _ & _ & _ & _ & _ & _ & _ & _ & _ & _ & _ & _ & G). cbv zeta in G.
        destruct (p_registers (info r1)) as [fs|]; [|apply by_const; discriminate].
        apply nearest_source in G as (x & Ix & E). apply in_map_iff in Ix as (y & <- & Iy).
        apply (by_bind _ (fun k => concatM (expand_rc m ix k _) fs)); [|intros; apply by_const; discriminate].
        apply by_concatM. intros rc Irc. apply (by_more (S (S (S (S (K + C)))))); [lia|]. apply expand_rc_by.
        assert (Py : exists p, peripheral_placed d p y).
        { destruct Iy as [<-|Iy]; [eauto|].
          assert (St : forall (ctx : list string) (s : string) (path : list string) (x : peripheral),
            path = [s] /\ peripheral_placed d path x -> peripheral_placed d path x /\ path = [s])
            by (intros ? ? ? ? [R Q]; split; [exact Q|exact R]).
          pose proof (chain_placed _ _ _ _ _ St _ _ _ F) as X. rewrite Forall_forall in X. auto. }
        destruct Py as [q Py]. exists q, (or_empty (p_registers (info y))). split; [constructor; exact Py|]. rewrite E. exact Irc.
      + intros r2 _ _. apply by_const. destruct r2; [discriminate|].
        unfold peripheral_expand, peripheral_instance, base_at, mul64, add64. dry.
  Qed.
End Bound.

Lemma expand_by m d P C K n : acyclic_to d P C K -> (P < n)%nat -> (K + C + 4 <= n)%nat -> by_ n (fun k => expand m k d).
Proof.
  intros ((rp & Hp) & (rc_ & Hc & Hk) & (rr & Hr) & (rf & Hf) & (rv & Hv)) LP LC. unfold expand.
  apply (by_bind _ (fun _ => index_create d)); [apply by_const, index_dry|]. intros ix _ Hix.
  apply (by_bind _ (fun k => concatM (expand_peripheral m ix k) (d_peripherals d))).
  - apply by_concatM. intros p I. eapply (expand_peripheral_by m d ix P C K Hix rp rc_ rr rf rv); eauto.
  - intros; apply by_const; discriminate.
Qed.

(** ** There are finitely many elements *)
Lemma bounded {A} (f : A -> nat) l : exists n, forall x, In x l -> (f x <= n)%nat.
Proof.
  induction l as [|a l [n IH]]; [exists O; intros x []|]. exists (Nat.max (f a) n). intros x [<-|I]; [lia|]. specialize (IH x I). lia.
Qed.
Fixpoint family (rc : register_cluster) : list register_cluster :=
  rc :: match rc with RCRegister _ => [] | RCCluster c => flat_map family (c_children (info c)) end.
Lemma family_self rc : In rc (family rc).
Proof. destruct rc; now left. Qed.
Lemma family_kids rc : forall (c : cluster) x, In (RCCluster c) (family rc) -> In x (c_children (info c)) -> In x (family rc).
Proof.
  induction rc as [r|c0 IH] using rc_tree_ind; intros c x I J.
  - destruct I as [I|[]]. discriminate I.
  - cbn [family] in I |- *. destruct I as [I|I].
    + injection I as ->. right. apply in_flat_map. exists x. split; [exact J|apply family_self].
    + right. apply in_flat_map in I as (y & Iy & I). apply in_flat_map. exists y. split; [exact Iy|]. rewrite Forall_forall in IH. exact (IH y Iy c x I J).
Qed.
Definition everything (d : device) : list register_cluster :=
  flat_map (fun p => flat_map family (or_empty (p_registers (info p)))) (d_peripherals d).
Lemma placed_everything d path kids : children_placed d path kids -> forall rc, In rc kids -> In rc (everything d).
Proof.
  unfold everything. induction 1 as [path p (n & _ & Ip & _)|path n kids c C IH I Nm]; intros rc J.
  - apply in_flat_map. exists p. split; [exact Ip|]. apply in_flat_map. exists rc. split; [exact J|apply family_self].
  - specialize (IH _ I). apply in_flat_map in IH as (p & Ip & IH). apply in_flat_map in IH as (y & Iy & IH).
    apply in_flat_map. exists p. split; [exact Ip|]. apply in_flat_map. exists y. split; [exact Iy|]. eapply family_kids; eauto.
Qed.
Definition fields_in (rc : register_cluster) : list field :=
  match rc with RCRegister r => or_empty (r_fields (info r)) | RCCluster _ => [] end.
Lemma acyclic_bounded d : acyclic d -> exists P C K, acyclic_to d P C K.
Proof.
  intros ((rp & Hp) & (rk & Hc & Hk) & (rr & Hr) & (rf & Hf) & (rv & Hv)).
  destruct (bounded rp (d_peripherals d)) as [P BP].
  destruct (bounded (fun rc => match rc with RCCluster c => rk c | RCRegister _ => O end) (everything d)) as [C BC].
  destruct (bounded (fun rc => match rc with RCRegister r => rr r | RCCluster _ => O end) (everything d)) as [K1 B1].
  destruct (bounded rf (flat_map fields_in (everything d))) as [K2 B2].
  destruct (bounded rv (flat_map (fun f : field => f_enumerated_values (info f)) (flat_map fields_in (everything d)))) as [K3 B3].
  assert (X : forall path r, register_placed d path r -> In (RCRegister r) (everything d)).
  { intros path r (b & n & kids & _ & Cp & I & _). eapply placed_everything; eauto. }
  assert (Y : forall path f, field_placed d path f -> In f (flat_map fields_in (everything d))).
  { intros path f (b & n & r & _ & R & I & _). apply in_flat_map. exists (RCRegister r). split; [eapply X; exact R|exact I]. }
  exists P, C, (Nat.max K1 (Nat.max K2 K3)). split; [|split; [|split; [|split]]].
  - exists rp. split; [exact Hp|]. intros path x (n & _ & I & _). exact (BP x I).
  - exists rk. split; [split; [exact Hc|]|exact Hk]. intros path c (b & n & kids & _ & Cp & I & _). exact (BC _ (placed_everything _ _ _ Cp _ I)).
  - exists rr. split; [exact Hr|]. intros path r R. pose proof (B1 _ (X _ _ R)) as L. cbv beta iota in L. lia.
  - exists rf. split; [exact Hf|]. intros path f F. pose proof (B2 _ (Y _ _ F)). lia.
  - exists rv. split; [exact Hv|]. intros path e (b & n & f & _ & F & I & _).
    assert (J : In e (flat_map (fun f : field => f_enumerated_values (info f)) (flat_map fields_in (everything d)))) by (apply in_flat_map; exists f; split; [eapply Y; exact F|exact I]).
    pose proof (B3 _ J). lia.
Qed.
Lemma bounded_acyclic d P C K : acyclic_to d P C K -> acyclic d.
Proof.
  intros ((rp & Hp & _) & (rk & (Hc & _) & Hk) & (rr & Hr & _) & (rf & Hf & _) & (rv & Hv & _)). unfold acyclic. conjs; eauto.
Qed.
