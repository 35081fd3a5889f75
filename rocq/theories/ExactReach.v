(** Whatever the meaning of expansion allows is reached by the code, given enough fuel. *)
From Verif Require Import Base BaseFacts Types TreeFacts BuilderProofs Derive DeriveProofs Arrays ArrayProofs IndexProofs InstanceProofs SpecArray SpecDerive SpecPath SpecExpand Expand PathProofs ExpandProofs PlaceProofs ChainProofs MeaningProofs SpecCause CauseProofs SpecExact ExactProofs.

(** ** Results that hold from some fuel on *)
Definition ev {A} (f : nat -> res A) (a : A) : Prop := exists k, forall k', (k <= k')%nat -> f k' = Ok a.
Lemma ev_const {A} (r : res A) a : r = Ok a -> ev (fun _ => r) a.
Proof. intros ->. exists O. auto. Qed.
Lemma ev_bind {A B} (f : nat -> res A) (g : nat -> A -> res B) a b :
  ev f a -> ev (fun k => g k a) b -> ev (fun k => bind (f k) (g k)) b.
Proof.
  intros [k H] [k' H']. exists (Nat.max k k'). intros n Hn. rewrite H by lia. cbn [bind]. apply H'. lia.
Qed.
Lemma ev_step {A} (f g : nat -> res A) a : (forall k, g (S k) = f k) -> ev f a -> ev g a.
Proof. intros E [k H]. exists (S k). intros [|n] Hn; [lia|]. rewrite E. apply H. lia. Qed.
Lemma ev_ext {A} (f g : nat -> res A) a : (forall k, f k = g k) -> ev f a -> ev g a.
Proof. intros E [k H]. exists k. intros n Hn. rewrite <- E. auto. Qed.
Lemma ev_mapM {A B} (f : nat -> A -> res B) l l' : Forall2 (fun a b => ev (fun k => f k a) b) l l' ->
  ev (fun k => mapM (f k) l) l'.
Proof.
  induction 1 as [|a b l l' H F IH]; cbn [mapM]; [now apply ev_const|].
  eapply ev_bind; [exact H|]. eapply ev_bind; [exact IH|]. now apply ev_const.
Qed.
Lemma ev_concatM {A B} (f : nat -> A -> res (list B)) l l' : Forall2 (fun a b => ev (fun k => f k a) b) l l' ->
  ev (fun k => concatM (f k) l) (List.concat l').
Proof.
  induction 1 as [|a b l l' H F IH]; cbn [concatM]; [now apply ev_const|].
  eapply ev_bind; [exact H|]. eapply ev_bind; [exact IH|]. now apply ev_const.
Qed.
Lemma forall2_map_r {A B C} (R : A -> C -> Prop) (g : B -> C) l l' :
  Forall2 (fun a b => R a (g b)) l l' -> Forall2 R l (map g l').
Proof. induction 1; constructor; auto. Qed.

(** ** Instances *)
Lemma sum_small m b a x : b <> 0 -> sum_is m b a x -> m = Debug -> a < b.
Proof. intros Hb [E K] D. specialize (K D). rewrite <- K, E. now apply N.mod_lt. Qed.
Lemma instances_reached {A} m (one : A -> dim_element -> N -> A -> Prop) bound i d base (mk : string -> N -> A) :
  bound <> 0 ->
  (forall k y, one i d k y -> (exists idx, index_text d k idx) /\ (m = Debug -> base + k * de_increment d < bound)) ->
  forall l, instances_of one (Array i d) l -> exists l', instances bound d base mk m = Ok l'.
Proof.
  intros Hb H l [_ K]. apply instances_ok. split.
  - intros k Hk. destruct (K k Hk) as (y & _ & O). apply (H _ _ O).
  - intros D k Hk. destruct (K k Hk) as (y & _ & O). now apply (H _ _ O).
Qed.
Lemma field_reached m i d l : instances_of (field_instance_of m) (Array i d) l -> field_expand m i d = Ok l.
Proof.
  intros H. assert (E : exists l', field_expand m i d = Ok l').
  { rewrite field_expand_instances. eapply instances_reached; [discriminate| |exact H].
    intros k y (j & A0 & _ & _ & A3 & _). split; [eauto|]. eapply sum_small; [discriminate|exact A3]. }
  destruct E as [l' E]. rewrite E. f_equal. eapply instances_fun; [apply field_instance_fun|apply field_instances, E|exact H].
Qed.
Lemma register_reached m i d l : instances_of (register_instance_of m) (Array i d) l -> register_expand m i d = Ok l.
Proof.
  intros H. assert (E : exists l', register_expand m i d = Ok l').
  { rewrite register_expand_instances. eapply instances_reached; [discriminate| |exact H].
    intros k y (j & A0 & _ & _ & _ & A3 & _). split; [eauto|]. eapply sum_small; [discriminate|exact A3]. }
  destruct E as [l' E]. rewrite E. f_equal. eapply instances_fun; [apply register_instance_fun|apply register_instances, E|exact H].
Qed.
Lemma peripheral_reached m i d l : instances_of (peripheral_instance_of m) (Array i d) l -> peripheral_expand m i d = Ok l.
Proof.
  intros H. assert (E : exists l', peripheral_expand m i d = Ok l').
  { rewrite peripheral_expand_instances. eapply instances_reached; [discriminate| |exact H].
    intros k y (j & A0 & _ & _ & _ & A3 & _). split; [eauto|]. eapply sum_small; [discriminate|exact A3]. }
  destruct E as [l' E]. rewrite E. f_equal. eapply instances_fun; [apply peripheral_instance_fun|apply peripheral_instances, E|exact H].
Qed.
Lemma cluster_reached m i d l : instances_of (cluster_instance_of m) (Array i d) l ->
  exists l', cluster_expand m i d = Ok l' /\ map spot l' = map spot l.
Proof.
  intros H. assert (E : exists l', cluster_expand m i d = Ok l').
  { rewrite cluster_expand_instances. eapply instances_reached; [discriminate| |exact H].
    intros k y (j & A0 & _ & A3). split; [eauto|]. eapply sum_small; [discriminate|exact A3]. }
  destruct E as [l' E]. exists l'. split; [exact E|]. eapply cluster_instances_fun; [apply cluster_instances, E|exact H].
Qed.
Lemma hoisted_reached m c kids out : c_children c = map plain kids ->
  Forall2 (hoisted m (c_name c) (c_address_offset c)) kids out -> expand_cluster m c = Ok (map plain out).
Proof.
  unfold expand_cluster. intros ->. induction 1 as [|x y kids out H F IH]; cbn [map mapM]; [reflexivity|].
  rewrite IH. cbn [info ma_map]. pose proof H as (_ & H2 & _).
  assert (E : exists off, add32 m (r_address_offset x) (c_address_offset c) = Ok off).
  { unfold add32, add_w. destruct (_ <? _) eqn:L; [eauto|]. destruct m; [|eauto]. exfalso.
    apply N.ltb_ge in L. assert (Hz : 2 ^ 32 <> 0) by discriminate. pose proof (sum_small _ _ _ _ Hz H2 eq_refl) as K.
    change (2 ^ 32) with pow32 in K. clear - L K. lia. }
  destruct E as [off E]. rewrite E. cbn [bind]. do 2 f_equal. f_equal. f_equal.
  eapply hoisted_fun; [|exact H]. unfold hoisted, r_move, r_with. cbn. conjs; try reflexivity. split.
  - unfold add32 in E. now apply add_w_mod in E.
  - intros ->. unfold add32 in E. apply add_w_debug in E. apply E.
Qed.

Lemma hoists_reached m (inst : N -> res cluster_info) kids l : forall cs', mapM inst l = Ok cs' ->
  Forall (fun x => c_children x = map plain kids) cs' -> forall cs outs, map spot cs' = map spot cs ->
  Forall2 (fun k out => Forall2 (hoisted m (c_name k) (c_address_offset k)) kids out) cs outs ->
  concatM (fun n => let* x := inst n in expand_cluster m x) l = Ok (map plain (List.concat outs)).
Proof.
  induction l as [|n l IH]; intros cs'; cbn [mapM concatM].
  - intros [= <-] _ [|k cs] outs E H; [|discriminate]. inversion H; subst. reflexivity.
  - intros H. bnd H x Ex. bnd H xs Exs. injection H as <-. intros F [|k cs] outs E H; [discriminate|].
    injection E as E1 E2 E. inversion F as [|? ? Fx Fs]; subst. inversion H as [|? out ? outs' Ho Hos]; subst.
    rewrite <- E1, <- E2 in Ho. rewrite Ex. cbn [bind]. rewrite (hoisted_reached m x kids out Fx Ho). cbn [bind].
    rewrite (IH _ Exs Fs _ _ E Hos). cbn [bind List.concat]. now rewrite map_app.
Qed.

(** ** References *)
Section Reach.
  Variables (m : mode) (d : device) (ix : index).
  Hypothesis Hix : index_create d = Ok ix.
  Hypothesis U : unambiguous d.

  Lemma look_peripheral q x : peripheral_placed d (block_parts q) x -> ix_peripheral ix q = Some x.
  Proof using Hix U.
    intros H. destruct (ix_peripheral_complete d ix Hix _ _ H) as [y E]. rewrite E. f_equal.
    eapply (un_peripherals d U); [eapply ix_peripheral_sound; eauto|exact H].
  Qed.
  Lemma look_cluster q x : cluster_placed d (block_parts q) x -> ix_cluster ix q = Some x.
  Proof using Hix U.
    intros H. destruct (ix_cluster_complete d ix Hix _ _ H) as [y E]. rewrite E. f_equal.
    eapply (un_clusters d U); [eapply ix_cluster_sound; eauto|exact H].
  Qed.
  Lemma look_register q x : register_placed d (register_parts q) x -> ix_register ix q = Some x.
  Proof using Hix U.
    intros H. destruct (ix_register_complete d ix Hix _ _ H) as [y E]. rewrite E. f_equal.
    eapply (un_registers d U); [eapply ix_register_sound; eauto|exact H].
  Qed.
  Lemma look_field q x : field_placed d (field_parts q) x -> ix_field ix q = Some x.
  Proof using Hix U.
    intros H. destruct (ix_field_complete d ix Hix _ _ H) as [y E]. rewrite E. f_equal.
    eapply (un_fields d U); [eapply ix_field_sound; eauto|exact H].
  Qed.
  Lemma look_enum q x : values_placed d (enum_parts q) x -> ix_enum ix q = Some x.
  Proof using Hix U.
    intros H. destruct (ix_enum_complete d ix Hix _ _ H) as [y E]. rewrite E. f_equal.
    eapply (un_values d U); [eapply ix_enum_sound; eauto|exact H].
  Qed.
  Lemma other_block b o n name : ~ block_parts (opt_default b o) ++ [n] = block_parts b ++ [name] ->
    bp_eqb (opt_default b o) b && seqb n name = false.
  Proof.
    intros H. destruct (bp_eqb (opt_default b o) b) eqn:E; [|reflexivity]. destruct (seqb n name) eqn:K; [|reflexivity].
    apply bp_eqb_eq in E. apply seqb_eq in K. rewrite E, K in H. contradiction.
  Qed.
  Lemma other_register b o n name : ~ register_parts (opt_default b o) ++ [n] = register_parts b ++ [name] ->
    rg_eqb (opt_default b o) b && seqb n name = false.
  Proof.
    intros H. destruct (rg_eqb (opt_default b o) b) eqn:E; [|reflexivity]. destruct (seqb n name) eqn:K; [|reflexivity].
    apply rg_eqb_eq in E. apply seqb_eq in K. rewrite E, K in H. contradiction.
  Qed.

  Lemma derive_peripheral_reached name ctx o chain : follows_peripherals d name ctx o chain ->
    forall s p, o = Some s -> p_name (info p) = name -> exists q, ev (fun k => derive_peripheral ix k p s) q.
  Proof using Hix U.
    intros F. induction F as [|ctx s path x l [-> St] Ns F IH]; intros s' p E En; [discriminate|]. injection E as <-.
    assert (Es : seqb s (p_name (info p)) = false) by (apply seqb_neq; now rewrite En).
    pose proof (look_peripheral (bp_new s) x St) as L.
    assert (I : info (peripheral_ma_derive p x) = peripheral_derive (info p) (info x)) by apply ma_derive_info.
    destruct (p_derived_from (info x)) as [s'|] eqn:D.
    - destruct (IH s' (peripheral_ma_derive p x) eq_refl) as [q Q]; [now rewrite I|].
      exists q. eapply ev_step; [|exact Q]. intros k. cbn [derive_peripheral]. rewrite Es, L. cbn [ok_or bind]. now rewrite D.
    - eexists. eapply ev_step; [|apply ev_const; reflexivity]. intros k. cbn [derive_peripheral].
      rewrite Es, L. cbn [ok_or bind]. rewrite D. reflexivity.
  Qed.
  Ltac block_step look := match goal with
    R : resolves (block_parts ?b) ?s ?path |- _ =>
      destruct (bp_parse_str_total s) as (o & n & Ep);
      pose proof (resolves_block s o n b Ep) as R';
      pose proof (resolves_fun _ _ _ _ R R'); subst path
    end.
  Lemma derive_cluster_reached name ctx o chain : follows_clusters d name ctx o chain ->
    forall s b (p : cluster), o = Some s -> ctx = block_parts b -> c_name (info p) = name ->
    exists q, ev (fun k => derive_cluster ix k p s b) q.
  Proof using Hix U.
    intros F. induction F as [|ctx s path x l [R St] Ns F IH]; intros s' b p E Ec En; [discriminate|]. injection E as <-.
    subst ctx. block_step tt. rewrite <- En in Ns. apply other_block in Ns.
    assert (L : ix_cluster ix (new_cluster (opt_default b o) n) = Some x).
    { apply look_cluster. exact St. }
    assert (I : info (cluster_ma_derive p x) = cluster_derive (info p) (info x)) by apply ma_derive_info.
    rewrite removelast_snoc in IH.
    destruct (c_derived_from (info x)) as [s'|] eqn:D.
    - destruct (IH s' (opt_default b o) (cluster_ma_derive p x) eq_refl eq_refl) as [q Q]; [now rewrite I|].
      exists q. eapply ev_step; [|exact Q]. intros k. cbn [derive_cluster]. rewrite Ep. cbn [bind fst snd].
      rewrite Ns, L. cbn [ok_or bind]. now rewrite D.
    - eexists. eapply ev_step; [|apply ev_const; reflexivity]. intros k. cbn [derive_cluster].
      rewrite Ep. cbn [bind fst snd]. rewrite Ns, L. cbn [ok_or bind]. rewrite D. reflexivity.
  Qed.
  Lemma derive_register_reached name ctx o chain : follows_registers d name ctx o chain ->
    forall s b (p : register), o = Some s -> ctx = block_parts b -> r_name (info p) = name ->
    exists q, ev (fun k => derive_register ix k p s b) q.
  Proof using Hix U.
    intros F. induction F as [|ctx s path x l [R St] Ns F IH]; intros s' b p E Ec En; [discriminate|]. injection E as <-.
    subst ctx. block_step tt. rewrite <- En in Ns. apply other_block in Ns.
    assert (L : ix_register ix (new_register (opt_default b o) n) = Some x).
    { apply look_register. exact St. }
    assert (I : info (register_ma_derive p x) = register_derive (info p) (info x)) by apply ma_derive_info.
    rewrite removelast_snoc in IH.
    destruct (r_derived_from (info x)) as [s'|] eqn:D.
    - destruct (IH s' (opt_default b o) (register_ma_derive p x) eq_refl eq_refl) as [q Q]; [now rewrite I|].
      exists q. eapply ev_step; [|exact Q]. intros k. cbn [derive_register]. rewrite Ep. cbn [bind fst snd].
      rewrite Ns, L. cbn [ok_or bind]. now rewrite D.
    - eexists. eapply ev_step; [|apply ev_const; reflexivity]. intros k. cbn [derive_register].
      rewrite Ep. cbn [bind fst snd]. rewrite Ns, L. cbn [ok_or bind]. rewrite D. reflexivity.
  Qed.
  Lemma children_nonempty path kids : children_placed d path kids -> path <> [].
  Proof. destruct 1 as [path p (n & -> & _)|path n]; [discriminate|]. destruct path; discriminate. Qed.
  Lemma register_long path r : register_placed d path r -> (2 <= List.length path)%nat.
  Proof.
    intros (b & n & kids & -> & K & _). apply children_nonempty in K. rewrite app_length. cbn.
    destruct b; [contradiction|cbn; lia].
  Qed.
  Lemma field_long path f : field_placed d path f -> (3 <= List.length path)%nat.
  Proof. intros (b & n & r & -> & K & _). apply register_long in K. rewrite app_length. cbn. lia. Qed.
  Lemma field_text ctx s path f : resolves ctx s path -> field_placed d path f -> exists o n, fp_parse_str s = Ok (o, n).
  Proof.
    intros (l & C & R) H. apply field_long in H. apply cut_split in C as E. unfold fp_parse_str, fp_parse_vec. rewrite <- E.
    destruct R as [(n & -> & ->)|(L & ->)]; [cbn; eauto|].
    destruct (pop_last l) as (i & z & -> & E1); [destruct l; [cbn in L; lia|discriminate]|]. cbn [unwrap bind fst snd].
    destruct (is_nil i) eqn:Ei; [eauto|].
    assert (Li : (2 <= List.length i)%nat) by (rewrite E1, app_length in H; cbn in H; lia).
    unfold bp_parse_vec. destruct (pop_last i) as (j & y & -> & E2); [destruct i; [cbn in Li; lia|discriminate]|].
    cbn [unwrap bind fst snd]. destruct j as [|a j]; [rewrite E2 in Li; cbn in Li; lia|]. cbn. eauto.
  Qed.
  Lemma derive_field_reached name ctx o chain : follows_fields d name ctx o chain ->
    forall s b (p : field), o = Some s -> ctx = register_parts b -> f_name (info p) = name ->
    exists q, ev (fun k => derive_field ix k p s b) q.
  Proof using Hix U.
    intros F. induction F as [|ctx s path x l [R St] Ns F IH]; intros s' b p E Ec En; [discriminate|]. injection E as <-.
    subst ctx. destruct (field_text _ _ _ _ R St) as (o & n & Ep).
    pose proof (resolves_register s o n b Ep) as R'. pose proof (resolves_fun _ _ _ _ R R'); subst path.
    rewrite <- En in Ns. apply other_register in Ns.
    assert (L : ix_field ix (new_field (opt_default b o) n) = Some x).
    { apply look_field. exact St. }
    assert (I : info (field_ma_derive p x) = field_derive (info p) (info x)) by apply ma_derive_info.
    rewrite removelast_snoc in IH.
    destruct (f_derived_from (info x)) as [s'|] eqn:D.
    - destruct (IH s' (opt_default b o) (field_ma_derive p x) eq_refl eq_refl) as [q Q]; [now rewrite I|].
      exists q. eapply ev_step; [|exact Q]. intros k. cbn [derive_field]. rewrite Ep. cbn [bind fst snd].
      rewrite Ns, L. cbn [ok_or bind]. now rewrite D.
    - eexists. eapply ev_step; [|apply ev_const; reflexivity]. intros k. cbn [derive_field].
      rewrite Ep. cbn [bind fst snd]. rewrite Ns, L. cbn [ok_or bind]. rewrite D. reflexivity.
  Qed.

  Lemma enum_in_fields_hit rg n f x fs : In f fs -> ix_enum ix (EnumPath (new_field rg (f_name (info f))) n) = Some x ->
    (forall g y, In g fs -> ix_enum ix (EnumPath (new_field rg (f_name (info g))) n) = Some y -> f_name (info g) = f_name (info f)) ->
    enum_in_fields ix rg n fs = Some (x, EnumPath (new_field rg (f_name (info f))) n).
  Proof.
    intros I E H. induction fs as [|g fs IH]; [destruct I|]. cbn [enum_in_fields]. cbv zeta.
    destruct (ix_enum ix (EnumPath (new_field rg (f_name (info g))) n)) as [y|] eqn:Eg.
    - pose proof (H g y (or_introl eq_refl) Eg) as K. rewrite K in *. congruence.
    - destruct I as [->|I]; [congruence|]. apply IH; [exact I|]. intros g' y' I'. apply H. now right.
  Qed.
  (** The search of [derive_enum]. *)
  Definition search (b : field_path) (name : option string) (init : list string) (n : string) : res (option (enumerated_values * enum_path)) :=
    match pop init with
    | None => Ok (match ix_register ix (fp_register b) with
                  | Some r => enum_in_fields ix (fp_register b) n (r_fields_iter (info r))
                  | None => None
                  end)
    | Some (v, fdname) =>
        let* fdpath := if is_nil v then Ok (new_field (fp_register b) fdname)
                       else let* rq := bp_parse_vec v in
                            let block := opt_default (rg_block (fp_register b)) (fst rq) in
                            Ok (FieldPath (new_register block (snd rq)) fdname) in
        if fp_eqb fdpath b && is_name n name
        then Err (ESelfDerived KValues (fp_show b ++ "." ++ n)%string)
        else let epath := EnumPath fdpath n in
             Ok (option_map (fun d => (d, epath)) (ix_enum ix epath))
    end.
  Lemma values_long path e : values_placed d path e -> (4 <= List.length path)%nat.
  Proof. intros (b & n & r & -> & K & _). apply field_long in K. rewrite app_length. cbn. lia. Qed.
  Lemma search_direct b name init n v fd fq x :
    pop init = Some (v, fd) ->
    (if is_nil v then Ok (new_field (fp_register b) fd)
     else let* rq := bp_parse_vec v in
          let block := opt_default (rg_block (fp_register b)) (fst rq) in
          Ok (FieldPath (new_register block (snd rq)) fd)) = Ok fq ->
    values_placed d (field_parts fq ++ [n]) x ->
    (forall n0, name = Some n0 -> field_parts fq ++ [n] <> field_parts b ++ [n0]) ->
    search b name init n = Ok (Some (x, EnumPath fq n)).
  Proof using Hix U.
    intros Ei Eq V Ns. unfold search. rewrite Ei. cbv beta iota.
    match goal with |- bind ?a _ = _ => replace a with (Ok fq) by (symmetry; exact Eq) end. cbn [bind].
    destruct (fp_eqb fq b && is_name n name) eqn:E.
    - exfalso. apply andb_true_iff in E as [E1 E2]. apply fp_eqb_eq in E1. subst fq.
      destruct name as [n0|]; [|discriminate]. cbn in E2. apply seqb_eq in E2. subst n0. exact (Ns n eq_refl eq_refl).
    - cbv zeta. rewrite (look_enum (EnumPath fq n) x V). reflexivity.
  Qed.
  Lemma search_reached b name s path x init n : resolves_values d (field_parts b) s path -> values_placed d path x ->
    ~ (exists n0, name = Some n0 /\ (s = n0 \/ path = field_parts b ++ [n0])) ->
    split "." s = init ++ [n] -> exists q, search b name init n = Ok (Some (x, q)) /\ enum_parts q = path.
  Proof using Hix U.
    intros (l & C & R) V Ns Es. apply cut_split in C. rewrite Es in C. subst l. cbv zeta in R.
    assert (Ns' : forall n0, name = Some n0 -> path <> field_parts b ++ [n0]) by (intros n0 E1 E2; eauto 10).
    pose proof (values_long _ _ V) as Lp.
    assert (Rb : removelast (field_parts b) = register_parts (fp_register b)) by (unfold field_parts; apply removelast_snoc).
    assert (Bb : removelast (register_parts (fp_register b)) = block_parts (rg_block (fp_register b)))
      by (unfold register_parts; apply removelast_snoc).
    rewrite Rb, ?Bb in R.
    destruct (pop init) as [[v fd]|] eqn:Ei.
    - pose proof Ei as Ei'. apply pop_spec in Ei' as ->.
      assert (Q : exists fq, (if is_nil v then Ok (new_field (fp_register b) fd)
                   else let* rq := bp_parse_vec v in
                        let block := opt_default (rg_block (fp_register b)) (fst rq) in
                        Ok (FieldPath (new_register block (snd rq)) fd)) = Ok fq /\ path = field_parts fq ++ [n]).
      { destruct v as [|r v].
        - cbn [app is_nil] in R |- *. eexists. split; [reflexivity|]. rewrite R. unfold field_parts, new_field. cbn [fp_register fp_name]. rewrite <- app_assoc. reflexivity.
        - destruct v as [|r2 v].
          + cbn [app is_nil] in R |- *. eexists. split; [reflexivity|]. rewrite R. cbn [pop unwrap bind fst snd opt_default]. unfold field_parts, register_parts. cbn [fp_register fp_name rg_block rg_name new_register]. rewrite <- !app_assoc. reflexivity.
          + cbn [is_nil]. destruct (pop_last (r :: r2 :: v)) as (j & y & E1 & E2); [discriminate|].
            unfold bp_parse_vec. rewrite E1. cbn [unwrap bind fst snd].
            destruct j as [|a j]; [discriminate|]. cbn [bind fst snd opt_default].
            eexists. split; [reflexivity|].
            assert (P : path = ((r :: r2 :: v) ++ [fd]) ++ [n]).
            { cbn [app] in R |- *. destruct (v ++ [fd]) as [|z1 [|z2 z]] eqn:Z; [destruct v; discriminate| |]; cbn [app] in R |- *; exact R. }
            rewrite P, E2. reflexivity. }
      destruct Q as (fq & Eq & ->). exists (EnumPath fq n). split; [|reflexivity].
      eapply search_direct; eauto.
    - pose proof Ei as Ei'. apply pop_none in Ei' as ->. cbn [app] in R. destruct R as (r & f & Rr & If & ->).
      exists (EnumPath (new_field (fp_register b) (f_name (info f))) n). split.
      + unfold search. rewrite Ei. rewrite (look_register (fp_register b) r Rr).
        rewrite (enum_in_fields_hit (fp_register b) n f x (r_fields_iter (info r))); [reflexivity| | |].
        * unfold r_fields_iter, or_empty in *. exact If.
        * apply look_enum. unfold enum_parts, field_parts. cbn [ep_field ep_name fp_register fp_name new_field]. rewrite <- app_assoc. exact V.
        * intros g y Ig Eg. apply (ix_enum_sound d ix Hix) in Eg.
          unfold enum_parts, field_parts in Eg. cbn [ep_field ep_name fp_register fp_name new_field] in Eg. rewrite <- app_assoc in Eg.
          eapply (un_names d U); [exact Rr| |exact If|exact Eg|exact V].
          unfold r_fields_iter, or_empty in *. exact Ig.
      + unfold enum_parts, field_parts. cbn [ep_field ep_name fp_register fp_name new_field]. now rewrite <- app_assoc.
  Qed.
  Lemma derive_enum_search k p s b init n : is_name s (evs_name p) = false -> pop (split "." s) = Some (init, n) ->
    derive_enum ix (S k) p s b =
      let* found := search b (evs_name p) init n in
      match found with
      | Some (d, epath) =>
          match evs_derived_from d with
          | Some dpath' => derive_enum ix k (evs_derive p d) dpath' (ep_field epath)
          | None => Ok (evs_derive p d, epath)
          end
      | None => Err (ENotFound KValues s)
      end.
  Proof. intros E1 E2. cbn [derive_enum]. rewrite E1, E2. reflexivity. Qed.
  Lemma derive_enum_reached name ctx o chain : follows_values d name ctx o chain ->
    forall s b p, o = Some s -> ctx = field_parts b -> evs_name p = name ->
    exists q, ev (fun k => derive_enum ix k p s b) q.
  Proof using Hix U.
    intros F. induction F as [|ctx s path x l [R St] Ns F IH]; intros s' b p E Ec En; [discriminate|]. injection E as <-.
    subst ctx. destruct (pop_last (split "." s) (split_nonempty _ _)) as (init & n & Ep & Es).
    rewrite <- En in Ns. destruct (search_reached _ _ _ _ _ _ _ R St Ns Es) as (q & Hq & Eq).
    assert (Hn : is_name s (evs_name p) = false).
    { destruct (evs_name p) as [n0|] eqn:E0; [|reflexivity]. cbn. apply seqb_neq. intros ->. apply Ns. eauto. }
    assert (Er : removelast path = field_parts (ep_field q)) by (rewrite <- Eq; unfold enum_parts; apply removelast_snoc).
    destruct (evs_derived_from x) as [s'|] eqn:D.
    - destruct (IH s' (ep_field q) (evs_derive p x) eq_refl Er) as [z Z]; [exact En|].
      exists z. eapply ev_step; [|exact Z]. intros k. rewrite (derive_enum_search _ _ _ _ _ _ Hn Ep), Hq. cbn [bind]. now rewrite D.
    - eexists. eapply ev_step; [|apply ev_const; reflexivity]. intros k.
      rewrite (derive_enum_search _ _ _ _ _ _ Hn Ep), Hq. cbn [bind]. rewrite D. reflexivity.
  Qed.
  (** ** Expansion *)
  Lemma ev_ok {A} (f : nat -> res A) a : ev f a -> exists k, f k = Ok a.
  Proof. intros [k H]. exists k. apply H. auto. Qed.
  Lemma expand_enum_reached b e e' : values_expanded d (field_parts b) e e' -> ev (fun k => expand_enum ix k b e) e'.
  Proof using Hix U.
    intros H. destruct (evs_derived_from e) as [s|] eqn:E.
    - assert (K : exists q, ev (fun k => derive_enum ix k (evs_underive e) s b) q).
      { destruct H as (chain & F & _). rewrite E in F. eapply derive_enum_reached; [exact F|reflexivity|reflexivity|reflexivity]. }
      destruct K as [q K]. assert (X : ev (fun k => expand_enum ix k b e) (fst q)).
      { unfold expand_enum. rewrite E. eapply ev_bind; [exact K|]. now apply ev_const. }
      destruct (ev_ok _ _ X) as [k Y]. apply (expand_enum_meaning d ix Hix) in Y.
      now rewrite <- (values_expanded_fun d U _ _ _ _ Y H).
    - unfold expand_enum. rewrite E. apply ev_const. f_equal.
      destruct H as (chain & F & V). rewrite E in F. inversion F; subst. cbn in V.
      eapply values_from_fun; [apply values_from_self; exact E|exact V].
  Qed.
  Lemma forall2_weak {A B} (R S : A -> B -> Prop) l l' : (forall a b, R a b -> S a b) -> Forall2 R l l' -> Forall2 S l l'.
  Proof. intros H. induction 1; constructor; auto. Qed.
  Lemma concat_map' {A B} (f : A -> B) l : List.concat (map (map f) l) = map f (List.concat l).
  Proof. symmetry. apply concat_map. Qed.
  Lemma expand_field_reached b f out : field_expanded m d (register_parts b) f out ->
    ev (fun k => expand_field m ix k b f) (map Single out).
  Proof using Hix U.
    intros (chain & f1 & ctx & evs & F & V & O & K & I). unfold expand_field.
    assert (Q : exists q, ev (fun k => match f_derived_from (info f) with
              | Some dpath => derive_field ix k (ma_map f_underive f) dpath b
              | None => Ok (f, None)
              end) q /\ fst q = f1 /\
              field_parts (opt_default (new_field b (f_name (info (fst q)))) (snd q)) = ctx).
    { destruct (f_derived_from (info f)) as [s|] eqn:E.
      - destruct (derive_field_reached _ _ _ _ F s b (ma_map f_underive f) eq_refl eq_refl) as [[q1 q2] Q]; [destruct f; reflexivity|].
        exists (q1, q2). split; [exact Q|]. cbn [fst snd]. apply ev_ok in Q as [k Hq].
        pose proof (derive_field_keeps _ _ _ _ _ _ _ Hq) as (_ & Hn & _).
        apply (derive_field_chain d ix Hix) in Hq as (chain' & F' & G & R); [|destruct f; reflexivity].
        assert (X : info (ma_map f_underive f) = f_underive (info f)) by (destruct f; reflexivity).
        rewrite X in F', Hn. cbn in F', Hn. rewrite <- (follows_fun _ _ _ (step_fields d U) _ _ _ F _ F') in *.
        assert (Ef : q1 = f1) by (eapply field_from_fun; [|exact V]; destruct f; exact G). subst q1. split; [reflexivity|].
        apply (returned_origin _ _ _ _ _ (new_field b (f_name (info f)))) in R.
        rewrite Hn. eapply origin_fun; [|exact O]. destruct f; exact R.
      - exists (f, None). split; [now apply ev_const|]. inversion F; subst. cbn [fst snd opt_default] in *.
        assert (Ef : f = f1) by (eapply field_from_fun; [apply field_from_self; exact E|exact V]). subst f1.
        split; [reflexivity|]. eapply origin_fun; [apply origin_none|exact O]. }
    destruct Q as ([q1 q2] & Q & <- & <-). eapply ev_bind; [exact Q|]. cbn [fst snd] in *. clear Q.
    eapply ev_bind; [apply ev_mapM; eapply forall2_weak; [|exact K]; intros a e' He; apply expand_enum_reached; exact He|].
    apply ev_const. destruct q1 as [i|i e]; cbn [ma_map mapped] in *.
    - cbn in I. subst out. reflexivity.
    - apply field_reached in I. unfold field_with in I. unfold f_set_enums. rewrite I. reflexivity.
  Qed.
  Lemma expand_register_reached b r out : register_expanded m d (block_parts b) r out ->
    ev (fun k => expand_register_array m ix k b r) (map plain out).
  Proof using Hix U.
    intros (chain & f1 & ctx & fs & F & V & O & K & I). unfold expand_register_array.
    assert (Q : exists q, ev (fun k => match r_derived_from (info r) with
              | Some dpath => derive_register ix k (ma_map r_underive r) dpath b
              | None => Ok (r, None)
              end) q /\ fst q = f1 /\
              register_parts (opt_default (new_register b (r_name (info (fst q)))) (snd q)) = ctx).
    { destruct (r_derived_from (info r)) as [s|] eqn:E.
      - destruct (derive_register_reached _ _ _ _ F s b (ma_map r_underive r) eq_refl eq_refl) as [[q1 q2] Q]; [destruct r; reflexivity|].
        exists (q1, q2). split; [exact Q|]. cbn [fst snd]. apply ev_ok in Q as [k Hq].
        pose proof (derive_register_keeps _ _ _ _ _ _ _ Hq) as (_ & Hn & _).
        apply (derive_register_chain d ix Hix) in Hq as (chain' & F' & G & R); [|destruct r; reflexivity].
        assert (X : info (ma_map r_underive r) = r_underive (info r)) by (destruct r; reflexivity).
        rewrite X in F', Hn. cbn in F', Hn. rewrite <- (follows_fun _ _ _ (step_registers d U) _ _ _ F _ F') in *.
        assert (Ef : q1 = f1) by (eapply register_from_fun; [|exact V]; destruct r; exact G). subst q1. split; [reflexivity|].
        apply (returned_origin _ _ _ _ _ (new_register b (r_name (info r)))) in R.
        rewrite Hn. eapply origin_fun; [|exact O]. destruct r; exact R.
      - exists (r, None). split; [now apply ev_const|]. inversion F; subst. cbn [fst snd opt_default] in *.
        assert (Ef : r = f1) by (eapply register_from_fun; [apply register_from_self; exact E|exact V]). subst f1.
        split; [reflexivity|]. eapply origin_fun; [apply origin_none|exact O]. }
    destruct Q as ([q1 q2] & Q & <- & <-). eapply ev_bind; [exact Q|]. cbn [fst snd] in *. clear Q.
    apply (ev_bind _ _ (mapped (fun i => register_with i fs) q1)).
    - destruct (r_fields (info q1)) as [l|] eqn:El.
      + destruct K as (groups & K & ->). eapply ev_bind.
        * apply ev_concatM. eapply (forall2_map_r _ (map Single)). eapply forall2_weak; [|exact K].
          intros a o Ha. apply expand_field_reached. exact Ha.
        * apply ev_const. rewrite concat_map'. destruct q1; reflexivity.
      + subst fs. apply ev_const. destruct q1 as [i|i e]; cbn [info mapped] in *; destruct i; cbn in El; subst; reflexivity.
    - apply ev_const. destruct q1 as [i|i e]; cbn [mapped] in *.
      + cbn in I. subst out. reflexivity.
      + apply register_reached in I. rewrite I. reflexivity.
  Qed.
  Lemma expand_rc_reached ctx rc out : child_expanded m d ctx rc out -> forall b, ctx = block_parts b ->
    ev (fun k => expand_rc m ix k b rc) (map plain out).
  Proof using Hix U.
    intros H. refine (child_ind m d (fun ctx rc out => forall b, ctx = block_parts b ->
      ev (fun k => expand_rc m ix k b rc) (map plain out)) _ _ ctx rc out H); clear ctx rc out H.
    - intros ctx r out H b ->. eapply ev_step; [|apply expand_register_reached; exact H]. reflexivity.
    - intros ctx r chain f1 ctx' groups cs outs F V O _ K I Ho b ->.
      eapply ev_step; [intros k; cbn [expand_rc]; reflexivity|].
    assert (Q : exists q, ev (fun k => match c_derived_from (info r) with
              | Some dpath => derive_cluster ix k (ma_map (fun i => c_with i (c_children i) None) r) dpath b
              | None => Ok (r, None)
              end) q /\ fst q = f1 /\
              block_parts (opt_default (new_cluster b (c_name (info (fst q)))) (snd q)) = ctx').
    { destruct (c_derived_from (info r)) as [s|] eqn:E.
      - destruct (derive_cluster_reached _ _ _ _ F s b (ma_map (fun i => c_with i (c_children i) None) r) eq_refl eq_refl) as [[q1 q2] Q]; [destruct r; reflexivity|].
        exists (q1, q2). split; [exact Q|]. cbn [fst snd]. apply ev_ok in Q as [k Hq].
        pose proof (derive_cluster_keeps _ _ _ _ _ _ _ Hq) as (_ & Hn & _).
        apply (derive_cluster_chain d ix Hix) in Hq as (chain' & F' & G & R); [|destruct r; reflexivity].
        assert (X : info (ma_map (fun i => c_with i (c_children i) None) r) = c_with (info r) (c_children (info r)) None) by (destruct r; reflexivity).
        rewrite X in F', Hn. cbn in F', Hn. rewrite <- (follows_fun _ _ _ (step_clusters d U) _ _ _ F _ F') in *.
        assert (Ef : q1 = f1) by (eapply cluster_from_fun; [|exact V]; destruct r; exact G). subst q1. split; [reflexivity|].
        apply (returned_origin _ _ _ _ _ (new_cluster b (c_name (info r)))) in R.
        rewrite Hn. eapply origin_fun; [|exact O]. destruct r; exact R.
      - exists (r, None). split; [now apply ev_const|]. inversion F; subst. cbn [fst snd opt_default] in *.
        assert (Ef : r = f1) by (eapply cluster_from_fun; [apply cluster_from_self; exact E|exact V]). subst f1.
        split; [reflexivity|]. eapply origin_fun; [apply origin_none|exact O]. }
    destruct Q as ([q1 q2] & Q & <- & <-). eapply ev_bind; [exact Q|]. cbn [fst snd] in *. clear Q.
    eapply ev_bind.
    { apply ev_concatM. eapply (forall2_map_r _ (map plain)). eapply forall2_weak; [|exact K].
      intros a o Ha. apply Ha. reflexivity. }
    apply ev_const. rewrite concat_map'. destruct q1 as [i|i e]; cbn [ma_map].
    + cbn in I. subst cs. inversion Ho as [|? o ? os Ho1 Ho2]; subst. inversion Ho2; subst. cbn [List.concat]. rewrite app_nil_r.
      eapply hoisted_reached; [reflexivity|exact Ho1].
    + set (j := c_with i (map plain (List.concat groups)) (c_derived_from i)).
      assert (I' : instances_of (cluster_instance_of m) (Array j e) cs) by exact I.
      apply cluster_reached in I' as (cs' & Ec & Es). unfold cluster_expand in Ec.
      assert (Kids : Forall (fun x => c_children x = map plain (List.concat groups)) cs').
      { apply Forall_forall. intros x Ix. apply mapM_ok in Ec. destruct (Forall2_in_r _ _ _ Ec _ Ix) as (n & _ & En).
        unfold cluster_instance in En. bnd En idx E3. bnd En off E4. injection En as <-. reflexivity. }
      eapply hoists_reached; eauto.
  Qed.
  Lemma expand_peripheral_reached r out : peripheral_expanded m d r out ->
    ev (fun k => expand_peripheral m ix k r) (map Single out).
  Proof using Hix U.
    intros (chain & f1 & ctx & fs & F & V & O & K & I). unfold expand_peripheral.
    assert (Q : exists q, ev (fun k => match p_derived_from (info r) with
              | Some dpath => derive_peripheral ix k (ma_map (fun i => p_with i (p_registers i) None) r) dpath
              | None => Ok (r, None)
              end) q /\ fst q = f1 /\
              block_parts (opt_default (bp_new (p_name (info (fst q)))) (snd q)) = ctx).
    { destruct (p_derived_from (info r)) as [s|] eqn:E.
      - destruct (derive_peripheral_reached _ _ _ _ F s (ma_map (fun i => p_with i (p_registers i) None) r) eq_refl) as [[q1 q2] Q]; [destruct r; reflexivity|].
        exists (q1, q2). split; [exact Q|]. cbn [fst snd]. apply ev_ok in Q as [k Hq].
        pose proof (derive_peripheral_keeps _ _ _ _ _ _ Hq) as (_ & Hn).
        apply (derive_peripheral_chain d ix Hix) in Hq as (chain' & Hq); [|destruct r; reflexivity].
        destruct (Hq []) as (F' & G & R).
        assert (X : info (ma_map (fun i => p_with i (p_registers i) None) r) = p_with (info r) (p_registers (info r)) None) by (destruct r; reflexivity).
        rewrite X in F', Hn. cbn in F', Hn. rewrite <- (follows_fun _ _ _ (step_peripherals d U) _ _ _ F _ F') in *.
        assert (Ef : q1 = f1) by (eapply peripheral_from_fun; [|exact V]; destruct r; exact G). subst q1. split; [reflexivity|].
        apply (returned_origin _ _ _ _ _ (bp_new (p_name (info r)))) in R.
        rewrite Hn. eapply origin_fun; [|exact O]. destruct r; exact R.
      - exists (r, None). split; [now apply ev_const|]. inversion F; subst. cbn [fst snd opt_default] in *.
        assert (Ef : r = f1) by (eapply peripheral_from_fun; [apply peripheral_from_self; exact E|exact V]). subst f1.
        split; [reflexivity|]. eapply origin_fun; [apply origin_none|exact O]. }
    destruct Q as ([q1 q2] & Q & <- & <-). eapply ev_bind; [exact Q|]. cbn [fst snd] in *. clear Q.
    apply (ev_bind _ _ (mapped (fun i => peripheral_with i fs) q1)).
    - destruct (p_registers (info q1)) as [l|] eqn:El.
      + destruct K as (groups & K & ->). eapply ev_bind.
        * apply ev_concatM. eapply (forall2_map_r _ (map plain)). eapply forall2_weak; [|exact K].
          intros a o Ha. eapply expand_rc_reached; [exact Ha|reflexivity].
        * apply ev_const. rewrite concat_map'. destruct q1; reflexivity.
      + subst fs. apply ev_const. destruct q1 as [i|i e]; cbn [info mapped] in *; destruct i; cbn in El; subst; reflexivity.
    - apply ev_const. destruct q1 as [i|i e]; cbn [mapped] in *.
      + cbn in I. subst out. reflexivity.
      + apply peripheral_reached in I. rewrite I. reflexivity.
  Qed.
End Reach.

(** ** The index exists *)
Lemma instances_enough {A} (one : A -> dim_element -> N -> A -> Prop) i e out :
  (forall k y, one i e k y -> exists idx, index_text e k idx) -> instances_of one (Array i e) out -> enough e.
Proof.
  intros H [_ K] l El. destruct (N.eq_dec (de_dim e) 0) as [Z|Z]; [rewrite Z; apply N.le_0_l|].
  destruct (K (de_dim e - 1)) as (y & _ & O); [clear - Z; lia|]. destruct (H _ _ O) as [idx T].
  unfold index_text in T. rewrite El in T.
  assert (L : (N.to_nat (de_dim e - 1) < List.length l)%nat) by (apply nth_error_Some; congruence).
  clear - L Z. lia.
Qed.
Lemma own_enough {A} (name : A -> string) (one : A -> dim_element -> N -> A -> Prop) g x chain y out :
  (forall i e k z, one i e k z -> exists idx, index_text e k idx) ->
  nearest_dims name x chain y -> instances_of one (mapped g y) out -> dims_ok enough x.
Proof.
  intros H N I e E. unfold nearest_dims in N. rewrite E in N. destruct y as [i|i e']; [discriminate|].
  injection N as ->. eapply instances_enough; [|exact I]. intros k z. apply H.
Qed.
Lemma forall2_left {A B} (R : A -> B -> Prop) (P : A -> Prop) l l' : (forall a b, R a b -> P a) -> Forall2 R l l' -> Forall P l.
Proof. intros H. induction 1; constructor; eauto. Qed.
Lemma field_index m i e k z : field_instance_of m i e k z -> exists idx, index_text e k idx.
Proof. intros (j & H & _). eauto. Qed.
Lemma register_index m i e k z : register_instance_of m i e k z -> exists idx, index_text e k idx.
Proof. intros (j & H & _). eauto. Qed.
Lemma cluster_index m i e k z : cluster_instance_of m i e k z -> exists idx, index_text e k idx.
Proof. intros (j & H & _). eauto. Qed.
Lemma peripheral_index m i e k z : peripheral_instance_of m i e k z -> exists idx, index_text e k idx.
Proof. intros (j & H & _). eauto. Qed.
Section Made.
  Variables (m : mode) (d : device).
  Notation any := (fun _ : string => True).
  Lemma field_good ctx f out : field_expanded m d ctx f out -> good_f enough any any f.
  Proof.
    intros (chain & f1 & x & evs & F & V & O & K & I). unfold good_f. conjs.
    - destruct V as (V & _). eapply own_enough; [|exact V|exact I]. apply field_index.
    - intros s _. exact Logic.I.
    - apply Forall_forall. intros e _ s _. exact Logic.I.
  Qed.
  Lemma register_good ctx r out : register_expanded m d ctx r out -> good_r enough any any r.
  Proof.
    intros (chain & f1 & x & fs & F & V & O & K & I). unfold good_r. conjs.
    - destruct V as (V & _). eapply own_enough; [|exact V|exact I]. apply register_index.
    - intros s _. exact Logic.I.
    - destruct (r_fields (info r)) as [l|] eqn:E; cbn [or_empty]; [|constructor].
      destruct V as (_ & _ & _ & _ & _ & _ & _ & _ & _ & _ & _ & _ & _ & V). cbn [map nearest] in V.
      destruct V as [(b & E1 & E2)|(E1 & _)]; [|congruence]. rewrite E2 in K. destruct K as (groups & K & _).
      rewrite E in E1. injection E1 as <-. eapply forall2_left; [|exact K]. apply field_good.
  Qed.
  Lemma child_good ctx rc out : child_expanded m d ctx rc out -> good_rc enough any any rc.
  Proof.
    intros H. refine (child_ind m d (fun _ rc _ => good_rc enough any any rc) _ _ ctx rc out H); clear ctx rc out H.
    - intros ctx r out H. constructor. eapply register_good; eauto.
    - intros ctx c chain c1 ctx' groups cs outs F V O _ K I Ho. constructor.
      + destruct V as (V & _). eapply (own_enough _ _ (fun i => i)); [|exact V|]; [apply (cluster_index m)|].
        destruct c1; exact I.
      + intros s _. exact Logic.I.
      + destruct V as (_ & _ & _ & _ & _ & _ & _ & _ & V). cbn [map nearest_list] in V.
        destruct V as [(E1 & E2)|(E1 & _)]; [|rewrite E1; constructor]. rewrite E2 in K.
        eapply forall2_left; [|exact K]. auto.
  Qed.
  Lemma peripheral_good p out : peripheral_expanded m d p out -> good_p enough any any p.
  Proof.
    intros (chain & f1 & x & fs & F & V & O & K & I). unfold good_p. conjs.
    - destruct V as (V & _). eapply own_enough; [|exact V|exact I]. apply peripheral_index.
    - intros s _. exact Logic.I.
    - destruct (p_registers (info p)) as [l|] eqn:E; cbn [or_empty]; [|constructor].
      destruct V as (_ & _ & _ & _ & _ & _ & _ & _ & _ & _ & _ & _ & _ & _ & _ & V). cbn [map nearest] in V.
      destruct V as [(b & E1 & E2)|(E1 & _)]; [|congruence]. rewrite E2 in K. destruct K as (groups & K & _).
      rewrite E in E1. injection E1 as <-. eapply forall2_left; [|exact K]. apply child_good.
  Qed.
  Lemma index_made d' : device_expanded m d d' -> exists ix, index_create d = Ok ix.
  Proof.
    intros [_ (groups & K & _)].
    assert (G : Forall (good_p enough any any) (d_peripherals d)) by (eapply forall2_left; [|exact K]; apply peripheral_good).
    pose proof (wp_create (fun _ => False) (fun _ => False) enough (fun e H => or_introl H) any any d G) as W.
    destruct (index_create d); [eauto|destruct W|destruct W].
  Qed.
  Lemma expand_reached d' : unambiguous d -> device_expanded m d d' ->
    exists k, forall fuel, (k <= fuel)%nat -> expand m fuel d = Ok d'.
  Proof.
    intros U H. destruct (index_made _ H) as [ix Hix]. pose proof H as [_ (groups & K & _)].
    assert (E : ev (fun k => expand m k d) (d_set_peripherals d (map Single (List.concat groups)))).
    { unfold expand. rewrite Hix. cbn [bind]. eapply ev_bind; [|now apply ev_const].
      rewrite concat_map. apply ev_concatM. apply (forall2_map_r _ (map Single)). eapply forall2_weak; [|exact K].
      intros a b Ha. eapply expand_peripheral_reached; eassumption. }
    destruct (ev_ok _ _ E) as [k0 E0]. apply expand_meaning in E0.
    rewrite <- (device_expanded_fun m d U _ _ E0 H). exact E.
  Qed.
End Made.
