From Verif Require Import BaseFacts Types Arrays TreeFacts SpecArray SpecDerive SpecPath SpecExpand SpecEnds Expand PathProofs
  ExpandProofs PlaceProofs ChainProofs MeaningProofs FlatProofs.

(** ** More fuel does not change a result *)
Definition same_or_out {A} (a b : res A) : Prop := a = Panic OutOfFuel \/ b = a.
Lemma so_refl {A} (a : res A) : same_or_out a a. Proof. now right. Qed.
Lemma so_bind {A B} (a b : res A) (f g : A -> res B) : same_or_out a b -> (forall x, same_or_out (f x) (g x)) ->
  same_or_out (bind a f) (bind b g).
Proof. intros [->| ->] H; [left; reflexivity|]. destruct a; cbn; [apply H|right; reflexivity|right; reflexivity]. Qed.
Lemma so_mapM {A B} (f g : A -> res B) l : (forall x, same_or_out (f x) (g x)) -> same_or_out (mapM f l) (mapM g l).
Proof. intros H. induction l as [|x l IH]; [apply so_refl|]. cbn [mapM]. repeat (apply so_bind; [auto|intros ?]). apply so_refl. Qed.
Lemma so_concatM {A B} (f g : A -> res (list B)) l : (forall x, same_or_out (f x) (g x)) -> same_or_out (concatM f l) (concatM g l).
Proof. intros H. induction l as [|x l IH]; [apply so_refl|]. cbn [concatM]. repeat (apply so_bind; [auto|intros ?]). apply so_refl. Qed.
Lemma so_if {A} (c : bool) (a b a' b' : res A) : same_or_out a a' -> same_or_out b b' ->
  same_or_out (if c then a else b) (if c then a' else b').
Proof. destruct c; auto. Qed.

Section Mono.
  Variables (m : mode) (ix : index).
  Lemma derive_peripheral_mono k : forall k' p s, (k <= k')%nat -> same_or_out (derive_peripheral ix k p s) (derive_peripheral ix k' p s).
  Proof.
    induction k as [|k IH]; intros k' p s L; [left; reflexivity|]. destruct k' as [|k']; [lia|]. cbn [derive_peripheral].
    apply so_if; [apply so_refl|]. apply so_bind; [apply so_refl|]. intros x. destruct (p_derived_from _); [apply IH; lia|apply so_refl].
  Qed.
  Lemma derive_cluster_mono k : forall k' c s b, (k <= k')%nat -> same_or_out (derive_cluster ix k c s b) (derive_cluster ix k' c s b).
  Proof.
    induction k as [|k IH]; intros k' p s b L; [left; reflexivity|]. destruct k' as [|k']; [lia|]. cbn [derive_cluster].
    apply so_bind; [apply so_refl|]. intros q. apply so_if; [apply so_refl|]. apply so_bind; [apply so_refl|]. intros x.
    destruct (c_derived_from _); [apply IH; lia|apply so_refl].
  Qed.
  Lemma derive_register_mono k : forall k' c s b, (k <= k')%nat -> same_or_out (derive_register ix k c s b) (derive_register ix k' c s b).
  Proof.
    induction k as [|k IH]; intros k' p s b L; [left; reflexivity|]. destruct k' as [|k']; [lia|]. cbn [derive_register].
    apply so_bind; [apply so_refl|]. intros q. apply so_if; [apply so_refl|]. apply so_bind; [apply so_refl|]. intros x.
    destruct (r_derived_from _); [apply IH; lia|apply so_refl].
  Qed.
  Lemma derive_field_mono k : forall k' c s b, (k <= k')%nat -> same_or_out (derive_field ix k c s b) (derive_field ix k' c s b).
  Proof.
    induction k as [|k IH]; intros k' p s b L; [left; reflexivity|]. destruct k' as [|k']; [lia|]. cbn [derive_field].
    apply so_bind; [apply so_refl|]. intros q. apply so_if; [apply so_refl|]. apply so_bind; [apply so_refl|]. intros x.
    destruct (f_derived_from _); [apply IH; lia|apply so_refl].
  Qed.
  Lemma derive_enum_mono k : forall k' c s b, (k <= k')%nat -> same_or_out (derive_enum ix k c s b) (derive_enum ix k' c s b).
  Proof.
    induction k as [|k IH]; intros k' p s b L; [left; reflexivity|]. destruct k' as [|k']; [lia|]. cbn [derive_enum].
    apply so_if; [apply so_refl|]. apply so_bind; [apply so_refl|]. intros q. apply so_bind; [apply so_refl|]. intros [[x q']|]; [|apply so_refl].
    destruct (evs_derived_from x); [apply IH; lia|apply so_refl].
  Qed.
  Lemma expand_field_mono k k' rp f : (k <= k')%nat -> same_or_out (expand_field m ix k rp f) (expand_field m ix k' rp f).
  Proof.
    intros L. unfold expand_field. apply so_bind.
    - destruct (f_derived_from _); [now apply derive_field_mono|apply so_refl].
    - intros q. cbv zeta. apply so_bind; [|intros; apply so_refl]. apply so_mapM. intros e. unfold expand_enum.
      destruct (evs_derived_from e); [|apply so_refl]. apply so_bind; [now apply derive_enum_mono|intros; apply so_refl].
  Qed.
  Lemma expand_register_mono k k' b r : (k <= k')%nat ->
    same_or_out (expand_register_array m ix k b r) (expand_register_array m ix k' b r).
  Proof.
    intros L. unfold expand_register_array. apply so_bind.
    - destruct (r_derived_from _); [now apply derive_register_mono|apply so_refl].
    - intros q. cbv zeta. apply so_bind; [|intros; apply so_refl].
      destruct (r_fields _); [|apply so_refl]. apply so_bind; [|intros; apply so_refl].
      apply so_concatM. intros f. now apply expand_field_mono.
  Qed.
  Lemma expand_rc_mono k : forall k' b rc, (k <= k')%nat -> same_or_out (expand_rc m ix k b rc) (expand_rc m ix k' b rc).
  Proof.
    induction k as [|k IH]; intros k' b rc L; [left; reflexivity|]. destruct k' as [|k']; [lia|]. cbn [expand_rc].
    destruct rc as [r|c]; [apply expand_register_mono; lia|]. apply so_bind.
    - destruct (c_derived_from _); [apply derive_cluster_mono; lia|apply so_refl].
    - intros q. cbv zeta. apply so_bind; [|intros; apply so_refl]. apply so_concatM. intros x. apply IH. lia.
  Qed.
  Lemma expand_peripheral_mono k k' p : (k <= k')%nat -> same_or_out (expand_peripheral m ix k p) (expand_peripheral m ix k' p).
  Proof.
    intros L. unfold expand_peripheral. apply so_bind.
    - destruct (p_derived_from _); [now apply derive_peripheral_mono|apply so_refl].
    - intros q. cbv zeta. apply so_bind; [|intros; apply so_refl].
      destruct (p_registers _); [|apply so_refl]. apply so_bind; [|intros; apply so_refl].
      apply so_concatM. intros f. now apply expand_rc_mono.
  Qed.
End Mono.
Lemma expand_mono m k k' d : (k <= k')%nat -> same_or_out (expand m k d) (expand m k' d).
Proof.
  intros L. unfold expand. apply so_bind; [apply so_refl|]. intros ix. apply so_bind; [|intros; apply so_refl].
  apply so_concatM. intros p. now apply expand_peripheral_mono.
Qed.

(** ** Settling *)
Definition settles {A} (f : nat -> res A) : Prop :=
  exists k r, r <> Panic OutOfFuel /\ forall k', (k <= k')%nat -> f k' = r.
Lemma se_const {A} (a : res A) : a <> Panic OutOfFuel -> settles (fun _ => a).
Proof. intros H. exists O, a. auto. Qed.
Lemma se_bind {A B} (f : nat -> res A) (g : nat -> A -> res B) : settles f ->
  (forall x k, f k = Ok x -> settles (fun k => g k x)) -> settles (fun k => bind (f k) (g k)).
Proof.
  intros (k & r & N & H) G. destruct r as [x|e|p].
  - destruct (G x k (H k (le_n _))) as (k1 & r1 & N1 & H1). exists (Nat.max k k1), r1. split; [exact N1|].
    intros k' L. rewrite H by lia. cbn. apply H1. lia.
  - exists k, (Err e). split; [discriminate|]. intros k' L. now rewrite H by lia.
  - exists k, (Panic p). split; [congruence|]. intros k' L. now rewrite H by lia.
Qed.
Lemma se_concatM {A B} (f : nat -> A -> res (list B)) l : (forall x, In x l -> settles (fun k => f k x)) ->
  settles (fun k => concatM (f k) l).
Proof.
  induction l as [|x l IH]; intros H; [apply (se_const (Ok [])); discriminate|]. cbn [concatM].
  apply (se_bind (fun k => f k x)); [apply H; now left|]. intros y _ _.
  apply (se_bind (fun k => concatM (f k) l)); [apply IH; intros; apply H; now right|]. intros z _ _. apply se_const. discriminate.
Qed.
Lemma se_mapM {A B} (f : nat -> A -> res B) l : (forall x, In x l -> settles (fun k => f k x)) ->
  settles (fun k => mapM (f k) l).
Proof.
  induction l as [|x l IH]; intros H; [apply (se_const (Ok [])); discriminate|]. cbn [mapM].
  apply (se_bind (fun k => f k x)); [apply H; now left|]. intros y _ _.
  apply (se_bind (fun k => mapM (f k) l)); [apply IH; intros; apply H; now right|]. intros z _ _. apply se_const. discriminate.
Qed.
Lemma se_S {A} (f g : nat -> res A) : (forall k, g (S k) = f k) -> settles f -> settles g.
Proof.
  intros E (k & r & N & H). exists (S k), r. split; [exact N|]. intros [|k'] L; [lia|]. rewrite E. apply H. lia.
Qed.

(** Results that never run out of fuel. *)
Definition dry {A} (a : res A) : Prop := a <> Panic OutOfFuel.
Lemma dry_bind {A B} (a : res A) (f : A -> res B) : dry a -> (forall x, dry (f x)) -> dry (bind a f).
Proof. unfold dry. destruct a; cbn; [auto|discriminate|congruence]. Qed.
Lemma dry_ok {A} (a : A) : dry (Ok a). Proof. discriminate. Qed.
Lemma dry_mapM {A B} (f : A -> res B) l : (forall x, dry (f x)) -> dry (mapM f l).
Proof. intros H. induction l; [apply dry_ok|]. cbn [mapM]. repeat (apply dry_bind; [auto|intros ?]). apply dry_ok. Qed.
Lemma dry_concatM {A B} (f : A -> res (list B)) l : (forall x, dry (f x)) -> dry (concatM f l).
Proof. intros H. induction l; [apply dry_ok|]. cbn [concatM]. repeat (apply dry_bind; [auto|intros ?]). apply dry_ok. Qed.
Lemma dry_unwrap {A} (o : option A) : dry (unwrap o). Proof. destruct o; discriminate. Qed.
Lemma dry_ok_or {A} (o : option A) e : dry (ok_or o e). Proof. destruct o; discriminate. Qed.
Lemma dry_add b m x y : dry (add_w b m x y). Proof. unfold add_w. destruct (_ <? _); [discriminate|]. destruct m; discriminate. Qed.
Lemma dry_mul b m x y : dry (mul_w b m x y). Proof. unfold mul_w. destruct (_ <? _); [discriminate|]. destruct m; discriminate. Qed.
Lemma dry_index_at d i : dry (index_at d i).
Proof. unfold index_at. destruct (de_index d); [|apply dry_ok]. unfold index_N. destruct (nth_N _ _); discriminate. Qed.
Lemma dry_bp_parse s : dry (bp_parse_str s).
Proof. destruct (bp_parse_str_total s) as (o & n & ->). discriminate. Qed.
Lemma dry_fp_parse s : dry (fp_parse_str s).
Proof. destruct (fp_parse_str_cases s) as [(o & n & ->)| ->]; discriminate. Qed.
Lemma dry_bp_parse_vec v : dry (bp_parse_vec v).
Proof. unfold bp_parse_vec. apply dry_bind; [apply dry_unwrap|]. intros [[|] ?]; discriminate. Qed.
Ltac dry := repeat first [apply dry_ok | apply dry_bp_parse | apply dry_fp_parse | apply dry_bp_parse_vec | apply dry_bind; [|intros ?] | apply dry_mapM; intros ? | apply dry_concatM; intros ?
  | apply dry_unwrap | apply dry_ok_or | apply dry_add | apply dry_mul | apply dry_index_at | apply dry_bp_parse
  | apply dry_fp_parse | apply dry_bp_parse_vec | progress cbv zeta | discriminate].

Section Settle.
  Variables (m : mode) (d : device) (ix : index).
  Hypothesis Hix : index_create d = Ok ix.
  Lemma derive_peripheral_settles ctx o :
    ends (fun p => p_derived_from (info p)) (fun _ s path p => path = [s] /\ peripheral_placed d path p) ctx o ->
    forall s, o = Some s -> forall p, settles (fun k => derive_peripheral ix k p s).
  Proof.
    induction 1 as [|ctx s H IH]; intros s' [= <-] p.
    eapply se_S; [intros k; cbn [derive_peripheral]; reflexivity|].
    destruct (seqb s _); [apply se_const; discriminate|].
    destruct (ix_peripheral ix (bp_new s)) as [x|] eqn:E; cbn [ok_or bind]; [|apply se_const; discriminate].
    apply (ix_peripheral_sound d ix Hix) in E. change (block_parts (bp_new s)) with [s] in E.
    destruct (p_derived_from (info x)) as [s'|] eqn:D; [|apply se_const; discriminate].
    apply (IH [s] x); auto.
  Qed.
  Lemma derive_cluster_settles ctx o :
    ends (fun c : cluster => c_derived_from (info c)) (fun ctx s path p => resolves ctx s path /\ cluster_placed d path p) ctx o ->
    forall s b, o = Some s -> ctx = block_parts b -> forall p, settles (fun k => derive_cluster ix k p s b).
  Proof.
    induction 1 as [|ctx s H IH]; intros s' b [= <-] -> p.
    eapply se_S; [intros k; cbn [derive_cluster]; reflexivity|].
    destruct (bp_parse_str s) as [[oq n]| |] eqn:Hq; cbn [bind fst snd];
      [|apply se_const; discriminate|destruct (bp_parse_str_total s) as (? & ? & ?); congruence].
    destruct (_ && _); [apply se_const; discriminate|].
    destruct (ix_cluster ix _) as [x|] eqn:E; cbn [ok_or bind]; [|apply se_const; discriminate].
    apply (ix_cluster_sound d ix Hix) in E.
    change (block_parts (new_cluster (opt_default b oq) n)) with (block_parts (opt_default b oq) ++ [n]) in E.
    pose proof (resolves_block _ _ _ b Hq) as R0.
    destruct (c_derived_from (info x)) as [s'|] eqn:D; [|apply se_const; discriminate].
    apply (IH _ x (conj R0 E)); auto. apply removelast_snoc.
  Qed.
  Lemma derive_register_settles ctx o :
    ends (fun c => r_derived_from (info c)) (fun ctx s path p => resolves ctx s path /\ register_placed d path p) ctx o ->
    forall s b, o = Some s -> ctx = block_parts b -> forall p, settles (fun k => derive_register ix k p s b).
  Proof.
    induction 1 as [|ctx s H IH]; intros s' b [= <-] -> p.
    eapply se_S; [intros k; cbn [derive_register]; reflexivity|].
    destruct (bp_parse_str s) as [[oq n]| |] eqn:Hq; cbn [bind fst snd];
      [|apply se_const; discriminate|destruct (bp_parse_str_total s) as (? & ? & ?); congruence].
    destruct (_ && _); [apply se_const; discriminate|].
    destruct (ix_register ix _) as [x|] eqn:E; cbn [ok_or bind]; [|apply se_const; discriminate].
    apply (ix_register_sound d ix Hix) in E.
    change (register_parts (new_register (opt_default b oq) n)) with (block_parts (opt_default b oq) ++ [n]) in E.
    pose proof (resolves_block _ _ _ b Hq) as R0.
    destruct (r_derived_from (info x)) as [s'|] eqn:D; [|apply se_const; discriminate].
    apply (IH _ x (conj R0 E)); auto. apply removelast_snoc.
  Qed.
  Lemma derive_field_settles ctx o :
    ends (fun c => f_derived_from (info c)) (fun ctx s path p => resolves ctx s path /\ field_placed d path p) ctx o ->
    forall s b, o = Some s -> ctx = register_parts b -> forall p, settles (fun k => derive_field ix k p s b).
  Proof.
    induction 1 as [|ctx s H IH]; intros s' b [= <-] -> p.
    eapply se_S; [intros k; cbn [derive_field]; reflexivity|].
    destruct (fp_parse_str s) as [[oq n]| |pp] eqn:Hq; cbn [bind fst snd]; [|apply se_const; discriminate|].
    2: { apply se_const. pose proof (dry_fp_parse s) as Dr. rewrite Hq in Dr. intros [= ->]. now apply Dr. }
    destruct (_ && _); [apply se_const; discriminate|].
    destruct (ix_field ix _) as [x|] eqn:E; cbn [ok_or bind]; [|apply se_const; discriminate].
    apply (ix_field_sound d ix Hix) in E.
    change (field_parts (new_field (opt_default b oq) n)) with (register_parts (opt_default b oq) ++ [n]) in E.
    pose proof (resolves_register _ _ _ b Hq) as R0.
    destruct (f_derived_from (info x)) as [s'|] eqn:D; [|apply se_const; discriminate].
    apply (IH _ x (conj R0 E)); auto. apply removelast_snoc.
  Qed.
  Lemma derive_enum_settles ctx o :
    ends evs_derived_from (fun ctx s path e => resolves_values d ctx s path /\ values_placed d path e) ctx o ->
    forall s b, o = Some s -> ctx = field_parts b -> forall p, settles (fun k => derive_enum ix k p s b).
  Proof.
    induction 1 as [|ctx s H IH]; intros s' b [= <-] -> p.
    eapply se_S; [intros k; cbn [derive_enum]; reflexivity|].
    destruct (is_name s (evs_name p)) eqn:Es; [apply se_const; discriminate|].
    destruct (pop (split "." s)) as [[init n]|] eqn:Ep; cbn [unwrap bind fst snd]; [|apply se_const; discriminate].
    apply pop_spec in Ep.
    apply se_bind.
    - apply se_const. destruct (pop init) as [[v fd]|]; [|discriminate].
      apply (dry_bind (if is_nil v then _ else _)).
      + destruct (is_nil v); dry.
      + intros x. destruct (_ && _); discriminate.
    - intros [[x q']|] _ Ef; [|apply se_const; discriminate].
      destruct (enum_found d ix Hix _ _ _ _ _ _ _ Es Ep Ef) as (R0 & Hx & _). apply (ix_enum_sound d ix Hix) in Hx.
      destruct (evs_derived_from x) as [s'|] eqn:D; [|apply se_const; discriminate].
      apply (IH _ x (conj R0 Hx)); auto. unfold enum_parts. apply removelast_snoc.
  Qed.

  Lemma expand_enum_settles fp e : values_end d (field_parts fp) e -> settles (fun k => expand_enum ix k fp e).
  Proof.
    unfold values_end, expand_enum. intros H. destruct (evs_derived_from e) as [s|] eqn:E; [|apply se_const; discriminate].
    apply (se_bind (fun k => derive_enum ix k (evs_underive e) s fp)); [eapply derive_enum_settles; eauto|].
    intros; apply se_const; discriminate.
  Qed.
  Lemma expand_field_settles rp f : field_ends d (register_parts rp) f -> settles (fun k => expand_field m ix k rp f).
  Proof.
    intros [H1 H2]. unfold expand_field.
    apply (se_bind (fun k => match f_derived_from (info f) with
              | Some dpath => derive_field ix k (ma_map f_underive f) dpath rp
              | None => Ok (f, None)
              end)).
    - destruct (f_derived_from (info f)) as [s|] eqn:E; [|apply se_const; discriminate]. eapply derive_field_settles; eauto.
    - intros [f1 o] k Hq. cbn [fst snd]. cbv zeta.
      assert (K : exists chain, follows_fields d (f_name (info f)) (register_parts rp) (f_derived_from (info f)) chain /\
        field_from f (paths chain) f1 /\
        origin (fun x => f_enumerated_values (info x) = []) f chain (register_parts rp ++ [f_name (info f)])
               (field_parts (opt_default (new_field rp (f_name (info f1))) o))).
      { destruct (f_derived_from (info f)) as [s|] eqn:E.
        - pose proof (derive_field_keeps _ _ _ _ _ _ _ Hq) as (_ & -> & _).
          apply (derive_field_chain d ix Hix) in Hq as (chain & F & G & R); [|destruct f; reflexivity].
          exists chain. assert (X : info (ma_map f_underive f) = f_underive (info f)) by (destruct f; reflexivity).
          rewrite X in F |- *. conjs; [exact F| |].
          + destruct f; exact G.
          + apply (returned_origin _ _ _ _ _ (new_field rp (f_name (info f)))) in R. destruct f; exact R.
        - injection Hq as <- <-. exists []. conjs; [constructor|now apply field_from_self|apply origin_none]. }
      destruct K as (chain & F & G & O). specialize (H2 _ _ _ F G O). rewrite Forall_forall in H2.
      apply (se_bind (fun k => mapM (expand_enum ix k _) (f_enumerated_values (info f1)))).
      + apply se_mapM. intros e I. apply expand_enum_settles. auto.
      + intros evs _ _. apply se_const. destruct f1; cbn [ma_map]; [discriminate|].
        unfold field_expand, field_instance, offset_at, mul32, add32. dry.
  Qed.
  Lemma expand_register_settles b r : register_ends d (block_parts b) r -> settles (fun k => expand_register_array m ix k b r).
  Proof.
    intros [H1 H2]. unfold expand_register_array.
    apply (se_bind (fun k => match r_derived_from (info r) with
              | Some dpath => derive_register ix k (ma_map r_underive r) dpath b
              | None => Ok (r, None)
              end)).
    - destruct (r_derived_from (info r)) as [s|] eqn:E; [|apply se_const; discriminate]. eapply derive_register_settles; eauto.
    - intros [r1 o] k Hq. cbn [fst snd]. cbv zeta.
      assert (K : exists chain, follows_registers d (r_name (info r)) (block_parts b) (r_derived_from (info r)) chain /\
        register_from r (paths chain) r1 /\
        origin (fun x => r_fields (info x) = None) r chain (block_parts b ++ [r_name (info r)])
               (register_parts (opt_default (new_register b (r_name (info r1))) o))).
      { destruct (r_derived_from (info r)) as [s|] eqn:E.
        - pose proof (derive_register_keeps _ _ _ _ _ _ _ Hq) as (_ & -> & _).
          apply (derive_register_chain d ix Hix) in Hq as (chain & F & G & R); [|destruct r; reflexivity].
          exists chain. assert (X : info (ma_map r_underive r) = r_underive (info r)) by (destruct r; reflexivity).
          rewrite X in F |- *. conjs; [exact F| |].
          + destruct r; exact G.
          + apply (returned_origin _ _ _ _ _ (new_register b (r_name (info r)))) in R. destruct r; exact R.
        - injection Hq as <- <-. exists []. conjs; [constructor|now apply register_from_self|apply origin_none]. }
      destruct K as (chain & F & G & O). specialize (H2 _ _ _ F G O). rewrite Forall_forall in H2.
      apply (se_bind (fun k => match r_fields (info r1) with
              | Some fs => let* l := concatM (expand_field m ix k (opt_default (new_register b (r_name (info r1))) o)) fs in
                           Ok (ma_map (fun i => r_set_fields i l) r1)
              | None => Ok r1
              end)).
      + destruct (r_fields (info r1)) as [fs|]; [|apply se_const; discriminate].
        apply (se_bind (fun k => concatM (expand_field m ix k _) fs)); [|intros; apply se_const; discriminate].
        apply se_concatM. intros f I. apply expand_field_settles. auto.
      + intros r2 _ _. apply se_const. destruct r2; [discriminate|].
        unfold register_expand, register_instance, offset_at, mul32, add32. dry.
  Qed.
  Lemma expand_cluster_dry c : dry (expand_cluster m c).
  Proof. unfold expand_cluster. apply dry_mapM. intros [r|c']; [|discriminate]. unfold add32. dry. Qed.
  Lemma expand_rc_settles ctx rc : child_ends d ctx rc -> forall b, ctx = block_parts b -> settles (fun k => expand_rc m ix k b rc).
  Proof.
    induction 1 as [ctx r H|ctx c H1 H2 IH]; intros b ->.
    - eapply se_S; [intros k; cbn [expand_rc]; reflexivity|]. now apply expand_register_settles.
    - eapply se_S; [intros k; cbn [expand_rc]; reflexivity|].
      apply (se_bind (fun k => match c_derived_from (info c) with
              | Some dpath => derive_cluster ix k (ma_map (fun i => c_with i (c_children i) None) c) dpath b
              | None => Ok (c, None)
              end)).
      + destruct (c_derived_from (info c)) as [s|] eqn:E; [|apply se_const; discriminate]. eapply derive_cluster_settles; eauto.
      + intros [c1 o] k Hq. cbn [fst snd]. cbv zeta.
        assert (K : exists chain, follows_clusters d (c_name (info c)) (block_parts b) (c_derived_from (info c)) chain /\
          cluster_from c (paths chain) c1 /\
          origin (fun x : cluster => c_children (info x) = []) c chain (block_parts b ++ [c_name (info c)])
                 (block_parts (opt_default (new_cluster b (c_name (info c1))) o))).
        { destruct (c_derived_from (info c)) as [s|] eqn:E.
          - pose proof (derive_cluster_keeps _ _ _ _ _ _ _ Hq) as (_ & -> & _).
            apply (derive_cluster_chain d ix Hix) in Hq as (chain & F & G & R); [|destruct c; reflexivity].
            exists chain. conjs.
            + destruct c; exact F.
            + destruct c; exact G.
            + apply (returned_origin _ _ _ _ _ (new_cluster b (c_name (info c)))) in R. destruct c; exact R.
          - injection Hq as <- <-. exists []. conjs; [constructor|now apply cluster_from_self|apply origin_none]. }
        destruct K as (chain & F & G & O).
        apply (se_bind (fun k => concatM (expand_rc m ix k _) (c_children (info c1)))).
        * apply se_concatM. intros rc I. eapply IH; eauto.
        * intros kids _ _. apply se_const. destruct c1; cbn [ma_map]; [apply expand_cluster_dry|].
          apply dry_concatM. intros n. apply dry_bind; [unfold cluster_instance, offset_at, mul32, add32; dry|]. intros x. apply expand_cluster_dry.
  Qed.
  Lemma expand_peripheral_settles p : peripheral_ends d p -> settles (fun k => expand_peripheral m ix k p).
  Proof.
    intros [H1 H2]. unfold expand_peripheral.
    apply (se_bind (fun k => match p_derived_from (info p) with
              | Some dpath => derive_peripheral ix k (ma_map (fun i => p_with i (p_registers i) None) p) dpath
              | None => Ok (p, None)
              end)).
    - destruct (p_derived_from (info p)) as [s|] eqn:E; [|apply se_const; discriminate]. eapply derive_peripheral_settles; eauto.
    - intros [r1 o] k Hq. cbn [fst snd]. cbv zeta.
      assert (K : exists chain, follows_peripherals d (p_name (info p)) [] (p_derived_from (info p)) chain /\
        peripheral_from p (paths chain) r1 /\
        origin (fun x => p_registers (info x) = None) p chain [p_name (info p)]
               (block_parts (opt_default (bp_new (p_name (info r1))) o))).
      { destruct (p_derived_from (info p)) as [s|] eqn:E.
        - pose proof (derive_peripheral_keeps _ _ _ _ _ _ Hq) as (_ & ->).
          apply (derive_peripheral_chain d ix Hix) in Hq as (chain & Hq); [|destruct p; reflexivity].
          destruct (Hq []) as (F & G & R).
          exists chain. conjs.
          + destruct p; exact F.
          + destruct p; exact G.
          + apply (returned_origin _ _ _ _ _ (bp_new (p_name (info p)))) in R. destruct p; exact R.
        - injection Hq as <- <-. exists []. conjs; [constructor|now apply peripheral_from_self|apply origin_none]. }
      destruct K as (chain & F & G & O). specialize (H2 _ _ _ F G O). rewrite Forall_forall in H2.
      apply (se_bind (fun k => match p_registers (info r1) with
              | Some rs => let* l := concatM (expand_rc m ix k (opt_default (bp_new (p_name (info r1))) o)) rs in
                           Ok (ma_map (fun i => p_with i (Some l) (p_derived_from i)) r1)
              | None => Ok r1
              end)).
      + destruct (p_registers (info r1)) as [fs|]; [|apply se_const; discriminate].
        apply (se_bind (fun k => concatM (expand_rc m ix k _) fs)); [|intros; apply se_const; discriminate].
        apply se_concatM. intros f I. eapply expand_rc_settles; [|reflexivity]. auto.
      + intros r2 _ _. apply se_const. destruct r2; [discriminate|].
        unfold peripheral_expand, peripheral_instance, base_at, mul64, add64. dry.
  Qed.
End Settle.
Lemma dry_concatM_in {A B} (f : A -> res (list B)) l : (forall x, In x l -> dry (f x)) -> dry (concatM f l).
Proof.
  intros H. induction l as [|a l IH]; [apply dry_ok|]. cbn [concatM]. apply dry_bind; [apply H; now left|intros ?].
  apply dry_bind; [apply IH; intros; apply H; now right|intros ?]. apply dry_ok.
Qed.
Lemma dry_names {A} (name : A -> string) x : dry (entry_names name x).
Proof. unfold entry_names, names. destruct x; dry. Qed.
Lemma dry_add_register b r : dry (add_register b r).
Proof.
  unfold add_register, register_at, add_field. apply dry_bind; [apply dry_names|]. intros ns. apply dry_concatM. intros n.
  apply dry_bind; [|intros; apply dry_ok]. apply dry_concatM. intros f. apply dry_bind; [apply dry_names|intros; apply dry_ok].
Qed.
Lemma dry_add_rc rc : forall b, dry (add_rc b rc).
Proof.
  induction rc as [r|c IH] using rc_tree_ind; intros b; cbn [add_rc]; [apply dry_add_register|].
  rewrite Forall_forall in IH.
  apply dry_bind; [apply dry_names|]. intros ns. apply dry_concatM. intros n. cbv zeta.
  apply dry_bind; [apply dry_concatM_in; intros [r|c'] I; [apply (IH _ I)|apply dry_ok]|]. intros rs.
  apply dry_bind; [apply dry_concatM_in; intros [r|c'] I; [apply dry_ok|apply (IH _ I)]|]. intros cs. apply dry_ok.
Qed.
Lemma index_dry d : dry (index_create d).
Proof.
  unfold index_create, add_peripheral. apply dry_concatM. intros p. apply dry_bind; [apply dry_names|]. intros ns.
  apply dry_concatM. intros n. cbv zeta. apply dry_bind; [apply dry_concatM; intros; apply dry_add_register|]. intros rs.
  apply dry_bind; [apply dry_concatM; intros; apply dry_add_rc|]. intros; apply dry_ok.
Qed.
Lemma expand_settles m d : device_ends d -> settles (fun k => expand m k d).
Proof.
  unfold device_ends. rewrite Forall_forall. intros H. unfold expand.
  apply (se_bind (fun _ => index_create d)); [apply se_const, index_dry|]. intros ix _ Hix.
  apply (se_bind (fun k => concatM (expand_peripheral m ix k) (d_peripherals d))).
  - apply se_concatM. intros p I. apply (expand_peripheral_settles m d ix Hix). auto.
  - intros; apply se_const; discriminate.
Qed.
