(** Errors of expansion are true. *)
From Verif Require Import Base BaseFacts Types TreeFacts BuilderProofs Derive DeriveProofs Arrays ArrayProofs SpecArray SpecDerive SpecPath SpecExpand Expand PathProofs
  ExpandProofs PlaceProofs ChainProofs MeaningProofs SpecExact ExactProofs ExactReach SpecRefuse.

Lemma bind_err {A B} (r : res A) (f : A -> res B) e : bind r f = Err e -> r = Err e \/ exists a, r = Ok a /\ f a = Err e.
Proof. destruct r; cbn; intros H; try discriminate; [right; eauto|left; congruence]. Qed.
Lemma mapM_err {A B} (f : A -> res B) l e : mapM f l = Err e -> exists a, In a l /\ f a = Err e.
Proof.
  induction l as [|a l IH]; cbn [mapM]; [discriminate|]. intros H. apply bind_err in H as [H|(b & E & H)]; [exists a; split; [now left|exact H]|].
  apply bind_err in H as [H|(bs & E' & H)]; [|discriminate]. destruct (IH H) as (x & I & X). exists x. split; [now right|exact X].
Qed.
Lemma concatM_err {A B} (f : A -> res (list B)) l e : concatM f l = Err e -> exists a, In a l /\ f a = Err e.
Proof.
  induction l as [|a l IH]; cbn [concatM]; [discriminate|]. intros H. apply bind_err in H as [H|(b & E & H)]; [exists a; split; [now left|exact H]|].
  apply bind_err in H as [H|(bs & E' & H)]; [|discriminate]. destruct (IH H) as (x & I & X). exists x. split; [now right|exact X].
Qed.
Lemma ok_or_err {A} (o : option A) x e : ok_or o x = Err e -> o = None /\ e = x.
Proof. destruct o; cbn; intros H; [discriminate|]. injection H as <-. auto. Qed.
(** What cannot give an error. *)
Lemma add_no_err b m x y e : add_w b m x y <> Err e.
Proof. unfold add_w. destruct (_ <? _); [discriminate|]. destruct m; discriminate. Qed.
Lemma mul_no_err b m x y e : mul_w b m x y <> Err e.
Proof. unfold mul_w. destruct (_ <? _); [discriminate|]. destruct m; discriminate. Qed.
Lemma index_no_err d i e : index_at d i <> Err e.
Proof. unfold index_at. destruct (de_index d) as [l|]; [|discriminate]. unfold index_N. destruct (nth_N l i); discriminate. Qed.
Ltac noerr := repeat match goal with
  | H : bind _ _ = Err _ |- _ => apply bind_err in H as [H|(? & ? & H)]
  | H : add_w _ _ _ _ = Err _ |- _ => now apply add_no_err in H
  | H : mul_w _ _ _ _ = Err _ |- _ => now apply mul_no_err in H
  | H : index_at _ _ = Err _ |- _ => now apply index_no_err in H
  | H : mapM _ _ = Err _ |- _ => apply mapM_err in H as (? & ? & H)
  | H : concatM _ _ = Err _ |- _ => apply concatM_err in H as (? & ? & H)
  | H : Ok _ = Err _ |- _ => discriminate H
  | H : Panic _ = Err _ |- _ => discriminate H
  end.
Lemma field_expand_no_err m i d e : field_expand m i d <> Err e.
Proof. intros H. unfold field_expand, field_instance, offset_at, add32, mul32 in H. noerr. Qed.
Lemma register_expand_no_err m i d e : register_expand m i d <> Err e.
Proof. intros H. unfold register_expand, register_instance, offset_at, add32, mul32 in H. noerr. Qed.
Lemma peripheral_expand_no_err m i d e : peripheral_expand m i d <> Err e.
Proof. intros H. unfold peripheral_expand, peripheral_instance, base_at, add64, mul64 in H. noerr. Qed.
Lemma cluster_instance_no_err m i d n e : cluster_instance m i d n <> Err e.
Proof. intros H. unfold cluster_instance, offset_at, add32, mul32 in H. noerr. Qed.
Lemma expand_cluster_no_err m c e : expand_cluster m c <> Err e.
Proof.
  intros H. unfold expand_cluster in H. apply mapM_err in H as (rc & I & H). destruct rc; [|discriminate]. unfold add32 in H. noerr.
Qed.
Lemma names_no_err {A} (name : A -> string) x e : entry_names name x <> Err e.
Proof. intros H. unfold entry_names in H. apply bind_err in H as [H|(? & ? & H)]; [|discriminate]. destruct x as [i|i d]; [discriminate|]. unfold names in H. noerr. Qed.
Lemma add_register_no_err b r e : add_register b r <> Err e.
Proof.
  intros H. unfold add_register in H. apply bind_err in H as [H|(? & ? & H)]; [now apply names_no_err in H|].
  apply concatM_err in H as (n & I & H). unfold register_at in H. apply bind_err in H as [H|(? & ? & H)]; [|discriminate].
  apply concatM_err in H as (f & If & H). unfold add_field in H. apply bind_err in H as [H|(? & ? & H)]; [now apply names_no_err in H|discriminate].
Qed.
Lemma add_rc_no_err rc : forall b e, add_rc b rc <> Err e.
Proof.
  induction rc as [r|c IH] using rc_tree_ind; intros b e H; cbn [add_rc] in H; [now apply add_register_no_err in H|].
  rewrite Forall_forall in IH. apply bind_err in H as [H|(? & ? & H)]; [now apply names_no_err in H|]. apply concatM_err in H as (n & I & H).
  cbv zeta in H. apply bind_err in H as [H|(? & ? & H)]; [|apply bind_err in H as [H|(? & ? & H)]; [|discriminate]]; apply concatM_err in H as (x' & Ix & H);
    destruct x'; try discriminate; eapply IH; eassumption.
Qed.
Lemma index_create_no_err d e : index_create d <> Err e.
Proof.
  intros H. unfold index_create in H. apply concatM_err in H as (p & I & H). unfold add_peripheral in H.
  apply bind_err in H as [H|(? & ? & H)]; [now apply names_no_err in H|]. apply concatM_err in H as (n & In_ & H). cbv zeta in H.
  apply bind_err in H as [H|(? & ? & H)]; [apply concatM_err in H as (r & Ir & H); now apply add_register_no_err in H|].
  apply bind_err in H as [H|(? & ? & H)]; [apply concatM_err in H as (r & Ir & H); now apply add_rc_no_err in H|discriminate].
Qed.

Lemma self_block_yes b o n name : bp_eqb (opt_default b o) b && seqb n name = true ->
  block_parts (opt_default b o) ++ [n] = block_parts b ++ [name].
Proof. intros H. apply andb_true_iff in H as [A B]. apply bp_eqb_eq in A. apply seqb_eq in B. now rewrite A, B. Qed.
Lemma self_register_yes b o n name : rg_eqb (opt_default b o) b && seqb n name = true ->
  register_parts (opt_default b o) ++ [n] = register_parts b ++ [name].
Proof. intros H. apply andb_true_iff in H as [A B]. apply rg_eqb_eq in A. apply seqb_eq in B. now rewrite A, B. Qed.
Lemma fp_parse_str_no_err s e : fp_parse_str s <> Err e.
Proof. destruct (fp_parse_str_cases s) as [(o & n & ->)| ->]; discriminate. Qed.
Lemma bp_parse_str_no_err s e : bp_parse_str s <> Err e.
Proof. destruct (bp_parse_str_total s) as (o & n & ->). discriminate. Qed.

Section Refuse.
  Variables (m : mode) (d : device) (ix : index).
  Hypothesis Hix : index_create d = Ok ix.

  Lemma derive_peripheral_stuck fuel : forall p s ctx e, derive_peripheral ix fuel p s = Err e -> peripheral_stuck d (p_name (info p)) ctx s e.
  Proof using Hix.
    induction fuel as [|k IH]; intros p s ctx e; cbn [derive_peripheral]; [discriminate|].
    destruct (seqb s (p_name (info p))) eqn:Es.
    - intros [= <-]. apply seqb_eq in Es. apply (su_self _ _ _ _ _ ctx s [s]); [reflexivity|exact Es].
    - apply seqb_neq in Es. intros H. apply bind_err in H as [H|(x & E & H)].
      + apply ok_or_err in H as [E ->]. eapply (su_missing _ _ _ _ _ ctx s [s]); [reflexivity|exact Es|]. intros x P.
        destruct (ix_peripheral_complete d ix Hix (bp_new s) x P) as [y Y]. rewrite E in Y. discriminate.
      + apply ok_or_ok in E. destruct (p_derived_from (info x)) as [s'|] eqn:D; [|discriminate].
        eapply (su_next _ _ _ _ _ ctx s [s] x s'); [reflexivity|exact Es|exact (ix_peripheral_sound d ix Hix _ _ E)|exact D|].
        apply (IH _ _ (removelast [s])) in H. assert (I : info (peripheral_ma_derive p x) = peripheral_derive (info p) (info x)) by apply ma_derive_info.
        rewrite I in H. exact H.
  Qed.
  Lemma derive_cluster_stuck fuel : forall (p : cluster) s b e, derive_cluster ix fuel p s b = Err e -> cluster_stuck d (c_name (info p)) (block_parts b) s e.
  Proof using Hix.
    induction fuel as [|k IH]; intros p s b e; cbn [derive_cluster]; [discriminate|].
    intros H. apply bind_err in H as [H|([oq n] & Hq & H)]; [now apply bp_parse_str_no_err in H|]. cbn [fst snd] in H.
    pose proof (resolves_block _ _ _ b Hq) as R0. destruct (_ && _) eqn:Es.
    - injection H as <-. apply self_block_yes in Es. rewrite show_block.
      change (block_parts (new_cluster (opt_default b oq) n)) with (block_parts (opt_default b oq) ++ [n]). eapply su_self; [exact R0|exact Es].
    - apply self_block in Es. apply bind_err in H as [H|(x & E & H)].
      + apply ok_or_err in H as [E ->]. eapply su_missing; [exact R0|exact Es|]. intros x P.
        destruct (ix_cluster_complete d ix Hix (new_cluster (opt_default b oq) n) x P) as [y Y]. rewrite E in Y. discriminate.
      + apply ok_or_ok in E. destruct (c_derived_from (info x)) as [s'|] eqn:D; [|discriminate].
        pose proof (ix_cluster_sound d ix Hix _ _ E) as P.
        change (block_parts (new_cluster (opt_default b oq) n)) with (block_parts (opt_default b oq) ++ [n]) in P.
        eapply su_next; [exact R0|exact Es|exact P|exact D|]. rewrite removelast_snoc. apply IH in H.
        assert (I : info (cluster_ma_derive p x) = cluster_derive (info p) (info x)) by apply ma_derive_info. rewrite I in H. exact H.
  Qed.
  Lemma derive_register_stuck fuel : forall p s b e, derive_register ix fuel p s b = Err e -> register_stuck d (r_name (info p)) (block_parts b) s e.
  Proof using Hix.
    induction fuel as [|k IH]; intros p s b e; cbn [derive_register]; [discriminate|].
    intros H. apply bind_err in H as [H|([oq n] & Hq & H)]; [now apply bp_parse_str_no_err in H|]. cbn [fst snd] in H.
    pose proof (resolves_block _ _ _ b Hq) as R0. destruct (_ && _) eqn:Es.
    - injection H as <-. apply self_block_yes in Es. rewrite show_register.
      change (register_parts (new_register (opt_default b oq) n)) with (block_parts (opt_default b oq) ++ [n]). eapply su_self; [exact R0|exact Es].
    - apply self_block in Es. apply bind_err in H as [H|(x & E & H)].
      + apply ok_or_err in H as [E ->]. eapply su_missing; [exact R0|exact Es|]. intros x P.
        destruct (ix_register_complete d ix Hix (new_register (opt_default b oq) n) x P) as [y Y]. rewrite E in Y. discriminate.
      + apply ok_or_ok in E. destruct (r_derived_from (info x)) as [s'|] eqn:D; [|discriminate].
        pose proof (ix_register_sound d ix Hix _ _ E) as P.
        change (register_parts (new_register (opt_default b oq) n)) with (block_parts (opt_default b oq) ++ [n]) in P.
        eapply su_next; [exact R0|exact Es|exact P|exact D|]. rewrite removelast_snoc. apply IH in H.
        assert (I : info (register_ma_derive p x) = register_derive (info p) (info x)) by apply ma_derive_info. rewrite I in H. exact H.
  Qed.
  Lemma derive_field_stuck fuel : forall p s b e, derive_field ix fuel p s b = Err e -> field_stuck d (f_name (info p)) (register_parts b) s e.
  Proof using Hix.
    induction fuel as [|k IH]; intros p s b e; cbn [derive_field]; [discriminate|].
    intros H. apply bind_err in H as [H|([oq n] & Hq & H)]; [now apply fp_parse_str_no_err in H|]. cbn [fst snd] in H.
    pose proof (resolves_register _ _ _ b Hq) as R0. destruct (_ && _) eqn:Es.
    - injection H as <-. apply self_register_yes in Es. rewrite show_field.
      change (field_parts (new_field (opt_default b oq) n)) with (register_parts (opt_default b oq) ++ [n]). eapply su_self; [exact R0|exact Es].
    - apply self_register in Es. apply bind_err in H as [H|(x & E & H)].
      + apply ok_or_err in H as [E ->]. eapply su_missing; [exact R0|exact Es|]. intros x P.
        destruct (ix_field_complete d ix Hix (new_field (opt_default b oq) n) x P) as [y Y]. rewrite E in Y. discriminate.
      + apply ok_or_ok in E. destruct (f_derived_from (info x)) as [s'|] eqn:D; [|discriminate].
        pose proof (ix_field_sound d ix Hix _ _ E) as P.
        change (field_parts (new_field (opt_default b oq) n)) with (register_parts (opt_default b oq) ++ [n]) in P.
        eapply su_next; [exact R0|exact Es|exact P|exact D|]. rewrite removelast_snoc. apply IH in H.
        assert (I : info (field_ma_derive p x) = field_derive (info p) (info x)) by apply ma_derive_info. rewrite I in H. exact H.
  Qed.
  Definition direct_path (b : field_path) (v : list string) (fd : string) : res field_path :=
    if is_nil v then Ok (new_field (fp_register b) fd)
    else let* rq := bp_parse_vec v in
         let block := opt_default (rg_block (fp_register b)) (fst rq) in
         Ok (FieldPath (new_register block (snd rq)) fd).
  Lemma direct_means b s v fd n : split "." s = (v ++ [fd]) ++ [n] ->
    exists fq, direct_path b v fd = Ok fq /\ resolves_values d (field_parts b) s (field_parts fq ++ [n]).
  Proof.
    intros Es. assert (C : cut "." s ((v ++ [fd]) ++ [n])) by (apply cut_split; symmetry; exact Es).
    assert (Rb : removelast (field_parts b) = register_parts (fp_register b)) by (unfold field_parts; apply removelast_snoc).
    assert (Bb : removelast (register_parts (fp_register b)) = block_parts (rg_block (fp_register b)))
      by (unfold register_parts; apply removelast_snoc).
    unfold direct_path, resolves_values. cbv zeta. rewrite Rb, ?Bb.
    destruct v as [|r v].
    - eexists. split; [reflexivity|]. exists [fd; n]. split; [exact C|]. unfold field_parts, new_field. cbn [fp_register fp_name]. rewrite <- app_assoc. reflexivity.
    - destruct v as [|r2 v].
      + eexists. split; [reflexivity|]. exists [r; fd; n]. split; [exact C|]. rewrite ?Bb. cbn [pop unwrap bind fst snd opt_default]. unfold field_parts, register_parts. cbn [fp_register fp_name rg_block rg_name new_register]. rewrite <- !app_assoc. reflexivity.
      + cbn [is_nil]. destruct (pop_last (r :: r2 :: v)) as (j & y & E1 & E2); [discriminate|].
        unfold bp_parse_vec. rewrite E1. cbn [unwrap bind fst snd].
        destruct j as [|a j]; [discriminate|]. cbn [bind fst snd opt_default].
        eexists. split; [reflexivity|]. eexists. split; [exact C|].
        cbn [app]. destruct (v ++ [fd]) as [|z1 [|z2 z]] eqn:Z; [destruct v; discriminate| |]; cbn [app].
        * destruct v as [|v1 v]; [|destruct v; discriminate]. cbn in Z. injection Z as <-. change ([r] ++ [r2] = (a :: j) ++ [y]) in E2. apply app_inj_tail in E2 as [E2 <-]. injection E2 as <- <-. reflexivity.
        * replace (r :: r2 :: z1 :: z2 :: z ++ [n]) with (((r :: r2 :: v) ++ [fd]) ++ [n]) by (cbn; now rewrite Z). rewrite E2. reflexivity.
  Qed.
  Lemma derive_enum_stuck fuel : forall p s b e, derive_enum ix fuel p s b = Err e -> values_stuck d (evs_name p) (field_parts b) s e.
  Proof using Hix.
    induction fuel as [|k IH]; intros p s b e H; [discriminate|].
    destruct (is_name s (evs_name p)) eqn:Hn.
    { cbn [derive_enum] in H. rewrite Hn in H. injection H as <-. destruct (evs_name p) as [n|] eqn:En; [|discriminate]. cbn in Hn. apply seqb_eq in Hn. subst s.
      change ("." ++ n)%string with (String "." n). rewrite show_field, <- glue_snoc by (unfold field_parts; destruct (register_parts (fp_register b)); discriminate). apply sv_self; [reflexivity|now left]. }
    destruct (pop_last (split "." s) (split_nonempty _ _)) as (init & n & Ep & Es).
    rewrite (derive_enum_search ix _ _ _ _ _ _ Hn Ep) in H.
    pose proof (is_name_false _ _ Hn) as Hs.
    assert (C : cut "." s (init ++ [n])) by (apply cut_split; symmetry; exact Es).
    apply bind_err in H as [H|(found & Ef & H)].
    - unfold search in H. destruct (pop init) as [[v fd]|] eqn:Ei; [|discriminate].
      apply pop_spec in Ei as ->. destruct (direct_means b s v fd n Es) as (fq & Eq & R). unfold direct_path in Eq.
      apply bind_err in H as [H|(fq' & Eq' & H)]; [rewrite Eq in H; discriminate|]. rewrite Eq in Eq'. injection Eq' as <-.
      destruct (fp_eqb fq b && is_name n (evs_name p)) eqn:E; [|discriminate]. injection H as <-.
      apply andb_true_iff in E as [E1 E2]. apply fp_eqb_eq in E1. subst fq.
      destruct (evs_name p) as [n0|] eqn:En; [|discriminate]. cbn in E2. apply seqb_eq in E2. subst n0.
      change ("." ++ n)%string with (String "." n). rewrite show_field, <- glue_snoc by (unfold field_parts; destruct (register_parts (fp_register b)); discriminate). apply sv_self; [reflexivity|now right].
    - destruct found as [[x q]|].
      + destruct (enum_found d ix Hix _ _ _ _ _ _ _ Hn Es Ef) as (R0 & Hx & Hself).
        destruct (evs_derived_from x) as [s'|] eqn:D; [|discriminate].
        apply (sv_next _ _ _ _ (enum_parts q) x s'); [exact R0|exact (ix_enum_sound d ix Hix _ _ Hx)| |exact D|].
        * intros m0 Em. split; intros K; apply Hself; eauto.
        * unfold enum_parts. rewrite removelast_snoc. apply IH in H. exact H.
      + injection H as <-. apply sv_missing. exists (init ++ [n]). split; [exact C|]. unfold search in Ef.
        destruct (pop init) as [[v fd]|] eqn:Ei.
        * apply pop_spec in Ei as ->. destruct (direct_means b s v fd n Es) as (fq & Eq & R). unfold direct_path in Eq.
          bnd Ef fq' Eq'. rewrite Eq in Eq'. injection Eq' as <-.
          destruct (fp_eqb fq b && is_name n (evs_name p)) eqn:E; [discriminate|]. cbv zeta in Ef.
          destruct (ix_enum ix (EnumPath fq n)) as [y|] eqn:Ey; [discriminate|].
          assert (K : exists path, resolves_values d (field_parts b) s path /\ forall e, ~ values_placed d path e).
          { exists (field_parts fq ++ [n]). split; [exact R|]. intros y V. destruct (ix_enum_complete d ix Hix (EnumPath fq n) y V) as [z Z]. rewrite Z in Ey. discriminate. }
          destruct v as [|v1 v]; [exact K|]. cbn [app]. destruct (v ++ [fd]) eqn:Z; exact K.
        * apply pop_none in Ei as ->. cbn [app]. unfold field_parts. rewrite removelast_snoc. injection Ef as Ef.
          destruct (ix_register ix (fp_register b)) as [r|] eqn:Er.
          -- right. exists r. split; [exact (ix_register_sound d ix Hix _ _ Er)|]. intros f e If V.
             assert (X : forall fs, In f fs -> enum_in_fields ix (fp_register b) n fs = None -> ix_enum ix (EnumPath (new_field (fp_register b) (f_name (info f))) n) = None).
             { induction fs as [|g fs IHf]; intros Ig Eg; [destruct Ig|]. cbn [enum_in_fields] in Eg. cbv zeta in Eg.
               destruct (ix_enum ix (EnumPath (new_field (fp_register b) (f_name (info g))) n)) eqn:Ez; [discriminate|]. destruct Ig as [->|Ig]; [exact Ez|auto]. }
             specialize (X _ If Ef). destruct (ix_enum_complete d ix Hix (EnumPath (new_field (fp_register b) (f_name (info f))) n) e) as [z Z].
             { unfold enum_parts, field_parts. cbn [ep_field ep_name fp_register fp_name new_field]. rewrite <- app_assoc. exact V. }
             rewrite Z in X. discriminate.
          -- left. intros r V. destruct (ix_register_complete d ix Hix _ _ V) as [z Z]. rewrite Z in Er. discriminate.
  Qed.

  Lemma field_chain fuel rp f f1 o :
    match f_derived_from (info f) with
    | Some dpath => derive_field ix fuel (ma_map f_underive f) dpath rp
    | None => Ok (f, None)
    end = Ok (f1, o) ->
    exists chain, follows_fields d (f_name (info f)) (register_parts rp) (f_derived_from (info f)) chain /\
      field_from f (paths chain) f1 /\
      origin (fun x => f_enumerated_values (info x) = []) f chain (register_parts rp ++ [f_name (info f)])
             (field_parts (opt_default (new_field rp (f_name (info f1))) o)).
  Proof using Hix.
    intros Hq. destruct (f_derived_from (info f)) as [s|] eqn:E.
    - pose proof (derive_field_keeps _ _ _ _ _ _ _ Hq) as (_ & -> & _).
      apply (derive_field_chain d ix Hix) in Hq as (chain & F & G & R); [|destruct f; reflexivity].
      exists chain. assert (X : info (ma_map f_underive f) = f_underive (info f)) by (destruct f; reflexivity).
      rewrite X in F |- *. conjs; [exact F| |].
      + destruct f; exact G.
      + apply (returned_origin _ _ _ _ _ (new_field rp (f_name (info f)))) in R. destruct f; exact R.
    - injection Hq as <- <-. exists []. conjs; [constructor|now apply field_from_self|apply origin_none].
  Qed.
  Lemma register_chain fuel b r r1 o :
    match r_derived_from (info r) with
    | Some dpath => derive_register ix fuel (ma_map r_underive r) dpath b
    | None => Ok (r, None)
    end = Ok (r1, o) ->
    exists chain, follows_registers d (r_name (info r)) (block_parts b) (r_derived_from (info r)) chain /\
      register_from r (paths chain) r1 /\
      origin (fun x => r_fields (info x) = None) r chain (block_parts b ++ [r_name (info r)])
             (register_parts (opt_default (new_register b (r_name (info r1))) o)).
  Proof using Hix.
    intros Hq. destruct (r_derived_from (info r)) as [s|] eqn:E.
    - pose proof (derive_register_keeps _ _ _ _ _ _ _ Hq) as (_ & -> & _).
      apply (derive_register_chain d ix Hix) in Hq as (chain & F & G & R); [|destruct r; reflexivity].
      exists chain. assert (X : info (ma_map r_underive r) = r_underive (info r)) by (destruct r; reflexivity).
      rewrite X in F |- *. conjs; [exact F| |].
      + destruct r; exact G.
      + apply (returned_origin _ _ _ _ _ (new_register b (r_name (info r)))) in R. destruct r; exact R.
    - injection Hq as <- <-. exists []. conjs; [constructor|now apply register_from_self|apply origin_none].
  Qed.
  Lemma cluster_chain fuel b (c c1 : cluster) o :
    match c_derived_from (info c) with
    | Some dpath => derive_cluster ix fuel (ma_map (fun i => c_with i (c_children i) None) c) dpath b
    | None => Ok (c, None)
    end = Ok (c1, o) ->
    exists chain, follows_clusters d (c_name (info c)) (block_parts b) (c_derived_from (info c)) chain /\
      cluster_from c (paths chain) c1 /\
      origin (fun x : cluster => c_children (info x) = []) c chain (block_parts b ++ [c_name (info c)])
             (block_parts (opt_default (new_cluster b (c_name (info c1))) o)).
  Proof using Hix.
    intros Hq. destruct (c_derived_from (info c)) as [s|] eqn:E.
    - pose proof (derive_cluster_keeps _ _ _ _ _ _ _ Hq) as (_ & -> & _).
      apply (derive_cluster_chain d ix Hix) in Hq as (chain & F & G & R); [|destruct c; reflexivity].
      exists chain. conjs.
      + destruct c; exact F.
      + destruct c; exact G.
      + apply (returned_origin _ _ _ _ _ (new_cluster b (c_name (info c)))) in R. destruct c; exact R.
    - injection Hq as <- <-. exists []. conjs; [constructor|now apply cluster_from_self|apply origin_none].
  Qed.
  Lemma peripheral_chain fuel p p1 o :
    match p_derived_from (info p) with
    | Some dpath => derive_peripheral ix fuel (ma_map (fun i => p_with i (p_registers i) None) p) dpath
    | None => Ok (p, None)
    end = Ok (p1, o) ->
    exists chain, follows_peripherals d (p_name (info p)) [] (p_derived_from (info p)) chain /\
      peripheral_from p (paths chain) p1 /\
      origin (fun x => p_registers (info x) = None) p chain [p_name (info p)]
             (block_parts (opt_default (bp_new (p_name (info p1))) o)).
  Proof using Hix.
    intros Hq. destruct (p_derived_from (info p)) as [s|] eqn:E.
    - pose proof (derive_peripheral_keeps _ _ _ _ _ _ Hq) as (_ & ->).
      apply (derive_peripheral_chain d ix Hix) in Hq as (chain & Hq); [|destruct p; reflexivity].
      destruct (Hq []) as (F & G & R).
      exists chain. conjs.
      + destruct p; exact F.
      + destruct p; exact G.
      + apply (returned_origin _ _ _ _ _ (bp_new (p_name (info p)))) in R. destruct p; exact R.
    - injection Hq as <- <-. exists []. conjs; [constructor|now apply peripheral_from_self|apply origin_none].
  Qed.

  Lemma expand_enum_refused fuel fp v e : expand_enum ix fuel fp v = Err e -> values_read d (field_parts fp) v -> refused d e.
  Proof using Hix.
    unfold expand_enum. destruct (evs_derived_from v) as [s|] eqn:E; [|discriminate]. intros H R.
    apply bind_err in H as [H|(q & _ & H)]; [|discriminate]. apply derive_enum_stuck in H. eapply re_values; eauto.
  Qed.
  Lemma expand_field_refused fuel rp f e : expand_field m ix fuel rp f = Err e -> field_read d (register_parts rp) f -> refused d e.
  Proof using Hix.
    unfold expand_field. intros H R. apply bind_err in H as [H|([f1 o] & Hq & H)].
    - destruct (f_derived_from (info f)) as [s|] eqn:E; [|discriminate]. apply derive_field_stuck in H.
      eapply re_field; [exact R|exact E|]. destruct f; exact H.
    - apply field_chain in Hq as (chain & F & G & O). cbn [fst snd] in H.
      apply bind_err in H as [H|(evs & _ & H)].
      + apply mapM_err in H as (v & I & H). eapply expand_enum_refused; [exact H|]. exists (register_parts rp), f, chain, f1. auto.
      + destruct f1; cbn [ma_map] in H; [discriminate|]. apply bind_err in H as [H|(? & _ & H)]; [|discriminate]. now apply field_expand_no_err in H.
  Qed.
  Lemma expand_register_refused fuel b r e : expand_register_array m ix fuel b r = Err e -> child_read d (block_parts b) (RCRegister r) -> refused d e.
  Proof using Hix.
    unfold expand_register_array. intros H R. apply bind_err in H as [H|([r1 o] & Hq & H)].
    - destruct (r_derived_from (info r)) as [s|] eqn:E; [|discriminate]. apply derive_register_stuck in H.
      eapply re_register; [exact R|exact E|]. destruct r; exact H.
    - apply register_chain in Hq as (chain & F & G & O). cbn [fst snd] in H.
      apply bind_err in H as [H|(r2 & _ & H)].
      + destruct (r_fields (info r1)) as [fs|] eqn:Ef; [|discriminate].
        apply bind_err in H as [H|(? & _ & H)]; [|discriminate]. apply concatM_err in H as (f & I & H).
        eapply expand_field_refused; [exact H|]. exists (block_parts b), r, chain, r1, fs. auto 10.
      + destruct r2; [discriminate|]. apply bind_err in H as [H|(? & _ & H)]; [|discriminate]. now apply register_expand_no_err in H.
  Qed.
  Lemma expand_rc_refused fuel : forall b rc e, expand_rc m ix fuel b rc = Err e -> child_read d (block_parts b) rc -> refused d e.
  Proof using Hix.
    induction fuel as [|k IH]; intros b rc e H R; cbn [expand_rc] in H; [discriminate|]. destruct rc as [r|c].
    - eapply expand_register_refused; eauto.
    - apply bind_err in H as [H|([c1 o] & Hq & H)].
      + destruct (c_derived_from (info c)) as [s|] eqn:E; [|discriminate]. apply derive_cluster_stuck in H.
        eapply re_cluster; [exact R|exact E|]. destruct c; exact H.
      + apply cluster_chain in Hq as (chain & F & G & O). cbn [fst snd] in H. cbv zeta in H.
        apply bind_err in H as [H|(kids & _ & H)].
        * apply concatM_err in H as (rc & I & H). eapply IH; [exact H|]. eapply cr_below; eauto.
        * destruct c1; cbn [ma_map] in H; [now apply expand_cluster_no_err in H|].
          apply concatM_err in H as (n & _ & H). apply bind_err in H as [H|(? & _ & H)]; [now apply cluster_instance_no_err in H|now apply expand_cluster_no_err in H].
  Qed.
  Lemma expand_peripheral_refused fuel p e : expand_peripheral m ix fuel p = Err e -> In p (d_peripherals d) -> refused d e.
  Proof using Hix.
    unfold expand_peripheral. intros H R. apply bind_err in H as [H|([p1 o] & Hq & H)].
    - destruct (p_derived_from (info p)) as [s|] eqn:E; [|discriminate]. apply (derive_peripheral_stuck _ _ _ []) in H.
      eapply re_peripheral; [exact R|exact E|]. destruct p; exact H.
    - apply peripheral_chain in Hq as (chain & F & G & O). cbn [fst snd] in H. cbv zeta in H.
      apply bind_err in H as [H|(p2 & _ & H)].
      + destruct (p_registers (info p1)) as [rs|] eqn:Ef; [|discriminate].
        apply bind_err in H as [H|(? & _ & H)]; [|discriminate]. apply concatM_err in H as (rc & I & H).
        eapply expand_rc_refused; [exact H|]. eapply cr_top; eauto.
      + destruct p2; [discriminate|]. apply bind_err in H as [H|(? & _ & H)]; [|discriminate]. now apply peripheral_expand_no_err in H.
  Qed.
End Refuse.
Lemma expand_refused m fuel d e : expand m fuel d = Err e -> refused d e.
Proof.
  unfold expand. intros H. apply bind_err in H as [H|(ix & Hix & H)]; [now apply index_create_no_err in H|].
  apply bind_err in H as [H|(ps & _ & H)]; [|discriminate]. apply concatM_err in H as (p & I & H).
  eapply expand_peripheral_refused; eauto.
Qed.

(** ** On unambiguous devices a reason to refuse excludes success *)
Lemma stuck_no_follows {A} k (ref : A -> option string) (meant : list string -> string -> list string -> Prop) (placed : list string -> A -> Prop) self :
  (forall ctx s p p', meant ctx s p -> meant ctx s p' -> p = p') -> (forall p x y, placed p x -> placed p y -> x = y) ->
  forall ctx s e, stuck k ref meant placed self ctx s e ->
  forall l, ~ follows ref self (fun ctx s p x => meant ctx s p /\ placed p x) ctx (Some s) l.
Proof.
  intros Fm Fp ctx s e H. induction H as [ctx s path M N P|ctx s path M N|ctx s path x s' e M N P D St IH]; intros l F;
    inversion F as [|? ? path' y l' [M' P'] N' F']; subst; rewrite <- (Fm _ _ _ _ M M') in *.
  - exact (P _ P').
  - exact (N' N).
  - rewrite <- (Fp _ _ _ P P'), D in F'. exact (IH _ F').
Qed.
Section Converse.
  Variables (m : mode) (d : device).
  Hypothesis U : unambiguous d.
  Lemma values_stuck_no_follows name ctx s e : values_stuck d name ctx s e -> forall l, ~ follows_values d name ctx (Some s) l.
  Proof using U.
    intros H. induction H as [ctx s (parts & C & N)|ctx s n En Hs|ctx s path x s' e R P N D St IH]; intros l F;
      inversion F as [|? ? path' y l' [R' P'] N' F']; subst.
    - destruct R' as (parts' & C' & R'). apply cut_split in C as ->. apply cut_split in C' as ->. cbv zeta in R'.
      assert (K : (exists path, resolves_values d ctx s path /\ (forall e, ~ values_placed d path e)) ->
                  (forall n, split "." s <> [n]) -> False).
      { intros (path & (l2 & C2 & R2) & Np) Nn. apply cut_split in C2 as ->. cbv zeta in R2.
        assert (path' = path) by (destruct (split "." s) as [|a [|b [|c [|c2 l]]]]; try congruence; destruct (Nn a eq_refl)).
        subst. exact (Np _ P'). }
      destruct (split "." s) as [|a [|b l2]].
      + apply K; [exact N|discriminate].
      + destruct R' as (r & f & Rr & If & ->). destruct N as [N|(r' & Rr' & N)]; [exact (N _ Rr)|].
        rewrite <- (un_registers d U _ _ _ Rr Rr') in N. exact (N _ _ If P').
      + apply K; [exact N|discriminate].
    - apply N'. exists n. split; [reflexivity|]. destruct Hs as [->|Hs]; [now left|].
      right. destruct Hs as (p1 & C1 & R1), R' as (p2 & C2 & R2). pose proof C1 as C0. apply cut_split in C1 as ->. apply cut_split in C2 as ->. cbv zeta in R1, R2.
      destruct (split "." s) as [|a [|b [|c [|c2 l]]]] eqn:Es; try congruence.
      destruct R1 as (r & f & Rr & If & E1), R2 as (r2 & f2 & Rr2 & If2 & E2). exfalso. apply N'. exists n. split; [reflexivity|]. left.
      destruct C0 as (_ & -> & _). change (ctx ++ [n] = removelast ctx ++ ([f_name (info f)] ++ [a])) in E1. rewrite app_assoc in E1. apply app_inj_tail in E1 as [_ ->]. reflexivity.
    - destruct (step_values d U _ _ _ _ _ _ (conj R P) (conj R' P')) as [<- <-]. rewrite D in F'. exact (IH _ F').
  Qed.
  Section In_expanded.
    Variable d' : device.
    Hypothesis M : device_expanded m d d'.
    Lemma peripheral_read_ok p : In p (d_peripherals d) -> exists out, peripheral_expanded m d p out.
    Proof using M. intros I. destruct M as (_ & groups & F & _). destruct (Forall2_in_l _ _ _ F _ I) as (out & _ & X). eauto. Qed.
    Lemma child_read_ok ctx rc : child_read d ctx rc -> exists out, child_expanded m d ctx rc out.
    Proof using M U.
      intros H. induction H as [p chain p1 ctx rs rc I F G O E Ir|ctx c chain c1 ctx' rc R [out IH] F G O I].
      - destruct (peripheral_read_ok p I) as (out & chain' & p1' & ctx' & rs' & F' & G' & O' & K & _).
        rewrite <- (follows_fun _ _ _ (step_peripherals d U) _ _ _ F _ F') in *. rewrite <- (peripheral_from_fun _ _ _ _ G G') in *.
        rewrite <- (origin_fun _ _ _ _ _ _ O O') in *. rewrite E in K. destruct K as (groups & K & _).
        destruct (Forall2_in_l _ _ _ K _ Ir) as (x & _ & X). eauto.
      - inversion IH as [|? ? chain' c1' ctx'' groups cs outs F' G' O' K]; subst.
        rewrite <- (follows_fun _ _ _ (step_clusters d U) _ _ _ F _ F') in *. rewrite <- (cluster_from_fun _ _ _ _ G G') in *.
        rewrite <- (origin_fun _ _ _ _ _ _ O O') in *. destruct (Forall2_in_l _ _ _ K _ I) as (x & _ & X). eauto.
    Qed.
    Lemma field_read_ok ctx f : field_read d ctx f -> exists out, field_expanded m d ctx f out.
    Proof using M U.
      intros (ctx0 & r & chain & r1 & fs & R & F & G & O & E & I). apply child_read_ok in R as [out R].
      inversion R as [? ? ? R'|]; subst. destruct R' as (chain' & r1' & ctx' & fs' & F' & G' & O' & K & _).
      rewrite <- (follows_fun _ _ _ (step_registers d U) _ _ _ F _ F') in *. rewrite <- (register_from_fun _ _ _ _ G G') in *.
      rewrite <- (origin_fun _ _ _ _ _ _ O O') in *. rewrite E in K. destruct K as (groups & K & _).
      destruct (Forall2_in_l _ _ _ K _ I) as (x & _ & X). eauto.
    Qed.
    Lemma values_read_ok ctx v : values_read d ctx v -> exists out, values_expanded d ctx v out.
    Proof using M U.
      intros (ctx0 & f & chain & f1 & R & F & G & O & I). apply field_read_ok in R as [out R].
      destruct R as (chain' & f1' & ctx' & evs & F' & G' & O' & K & _).
      rewrite <- (follows_fun _ _ _ (step_fields d U) _ _ _ F _ F') in *. rewrite <- (field_from_fun _ _ _ _ G G') in *.
      rewrite <- (origin_fun _ _ _ _ _ _ O O') in *.
      destruct (Forall2_in_l _ _ _ K _ I) as (x & _ & X). eauto.
    Qed.
    Lemma refused_not_expanded e : ~ refused d e.
    Proof using M U.
      intros [p s I E S|ctx c s R E S|ctx r s R E S|ctx f s R E S|ctx v s R E S].
      - destruct (peripheral_read_ok p I) as (out & chain & p1 & ctx' & rs & F & _). rewrite E in F.
        eapply (stuck_no_follows _ _ _ _ _) in F; [exact F| | |exact S]; [congruence|exact (un_peripherals d U)].
      - apply child_read_ok in R as [out R]. inversion R as [|? ? chain' c1' ctx'' groups cs outs F]; subst. rewrite E in F.
        eapply (stuck_no_follows _ _ _ _ _) in F; [exact F| | |exact S]; [exact resolves_fun|exact (un_clusters d U)].
      - apply child_read_ok in R as [out R]. inversion R as [? ? ? R'|]; subst. destruct R' as (chain' & r1' & ctx' & fs' & F & _). rewrite E in F.
        eapply (stuck_no_follows _ _ _ _ _) in F; [exact F| | |exact S]; [exact resolves_fun|exact (un_registers d U)].
      - apply field_read_ok in R as (out & chain' & f1' & ctx' & evs & F & _). rewrite E in F.
        eapply (stuck_no_follows _ _ _ _ _) in F; [exact F| | |exact S]; [exact resolves_fun|exact (un_fields d U)].
      - apply values_read_ok in R as (out & chain' & F & _). rewrite E in F. exact (values_stuck_no_follows _ _ _ _ S _ F).
    Qed.
  End In_expanded.
End Converse.
Lemma refused_never m d e fuel d' : unambiguous d -> refused d e -> expand m fuel d <> Ok d'.
Proof. intros U R H. exact (refused_not_expanded m d U d' (expand_meaning _ _ _ _ H) e R). Qed.
(** Inversions. *)
Lemma stuck_why {A} k (ref : A -> option string) meant (placed : list string -> A -> Prop) self ctx s e : stuck k ref meant placed self ctx s e ->
  exists ctx' s', (e = ENotFound k s' /\ exists path, meant ctx' s' path /\ forall x, ~ placed path x) \/
    exists path, e = ESelfDerived k (glue "." path) /\ meant ctx' s' path /\ self ctx' s' path.
Proof. intros H. induction H; eauto 10. Qed.
Lemma peripheral_stuck_loop d name ctx s t : peripheral_stuck d name ctx s (ESelfDerived KPeripheral t) ->
  t = name /\ (s = name \/ leads d s name).
Proof.
  unfold peripheral_stuck. remember (ESelfDerived KPeripheral t) as e eqn:Ee. intros H.
  induction H as [ctx s path M N P|ctx s path M N|ctx s path x s' e M N P D St IH]; try discriminate.
  - subst. injection Ee as <-. split; [reflexivity|now left].
  - subst path. destruct (IH Ee) as [-> [->|L]]; (split; [reflexivity|right]); [eapply le_one; eauto|eapply le_more; eauto].
Qed.
Lemma refused_peripheral_self d t : refused d (ESelfDerived KPeripheral t) -> leads d t t.
Proof.
  intros [p s I E S|ctx c s R E S|ctx r s R E S|ctx f s R E S|ctx v s R E S].
  - apply peripheral_stuck_loop in S as [-> L].
    assert (P : peripheral_placed d [p_name (info p)] p) by (exists (p_name (info p)); conjs; [reflexivity|exact I|now left]).
    destruct L as [->|L]; [eapply le_one; eauto|eapply le_more; eauto].
  - apply stuck_why in S as (? & ? & [[K _]|(? & K & _)]); discriminate.
  - apply stuck_why in S as (? & ? & [[K _]|(? & K & _)]); discriminate.
  - apply stuck_why in S as (? & ? & [[K _]|(? & K & _)]); discriminate.
  - exfalso. remember (ESelfDerived KPeripheral t) as e0 eqn:Ee. clear -S Ee. induction S; try discriminate; auto.
Qed.
Lemma values_stuck_kind d name ctx s e : values_stuck d name ctx s e ->
  (exists ctx' s', e = ENotFound KValues s' /\ no_values d ctx' s') \/
  exists ctx' s' n, e = ESelfDerived KValues (glue "." (ctx' ++ [n])) /\ name = Some n /\ (s' = n \/ resolves_values d ctx' s' (ctx' ++ [n])).
Proof. intros H. induction H as [| |? ? ? ? ? ? ? ? ? ? ? IH]; [left; eauto|right; eauto 10|exact IH]. Qed.
Lemma refused_missing d k s : refused d (ENotFound k s) ->
  match k with
  | KPeripheral => forall p, ~ peripheral_placed d [s] p
  | KCluster => exists ctx path, resolves ctx s path /\ forall x, ~ cluster_placed d path x
  | KRegister => exists ctx path, resolves ctx s path /\ forall x, ~ register_placed d path x
  | KField => exists ctx path, resolves ctx s path /\ forall x, ~ field_placed d path x
  | KValues => exists ctx, no_values d ctx s
  end.
Proof.
  intros [p s' I E S|ctx c s' R E S|ctx r s' R E S|ctx f s' R E S|ctx v s' R E S];
  try (apply stuck_why in S as (ctx2 & s2 & [[K (path & M & N)]|(? & K & _)]); [|discriminate]; injection K as -> ->); eauto 10.
  - subst. exact N.
  - apply values_stuck_kind in S as [(c' & s2 & K & N)|(? & ? & ? & K & _)]; [|discriminate]. injection K as -> ->. eauto.
Qed.
Lemma resolves_long ctx s path parts : resolves ctx s path -> cut "." s parts -> (2 <= List.length parts)%nat -> path = parts.
Proof.
  intros (l & C & R) C' L. apply cut_split in C as ->. apply cut_split in C' as ->.
  destruct R as [(n & E & _)|[_ R]]; [rewrite E in L; cbn in L; lia|exact R].
Qed.
Lemma refused_absent d s parts : cut "." s parts -> (2 <= List.length parts)%nat ->
  (refused d (ENotFound KCluster s) -> forall x, ~ cluster_placed d parts x) /\
  (refused d (ENotFound KRegister s) -> forall x, ~ register_placed d parts x) /\
  (refused d (ENotFound KField s) -> forall x, ~ field_placed d parts x).
Proof.
  intros C L. conjs; intros R; apply refused_missing in R as (ctx & path & R & N); now rewrite (resolves_long _ _ _ _ R C L) in N.
Qed.
