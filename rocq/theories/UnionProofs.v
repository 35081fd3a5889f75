(** Expanding descriptions that are put together from others. *)
From Verif Require Import Base BaseFacts TreeFacts Types Derive Arrays Expand SpecExpand SpecUnion PathProofs PlaceProofs.

Lemma interleaved_in {A} (a b l : list A) x : interleaved a b l -> In x l <-> In x a \/ In x b.
Proof. induction 1; cbn; tauto. Qed.
Lemma interleaved_left {A} (a : list A) : interleaved a [] a.
Proof. induction a; now constructor. Qed.
Lemma interleaved_right {A} (a : list A) : interleaved [] a a.
Proof. induction a; now constructor. Qed.
Lemma interleaved_app {A} (a b l a' b' l' : list A) : interleaved a b l -> interleaved a' b' l' ->
  interleaved (a ++ a') (b ++ b') (l ++ l').
Proof. intros H K. induction H; cbn; [exact K|now constructor..]. Qed.
Lemma interleaved_swap {A} (a b l : list A) : interleaved a b l -> interleaved b a l.
Proof. induction 1; now constructor. Qed.
Lemma interleaved_nil {A} (a l : list A) : interleaved a [] l -> l = a.
Proof. remember [] as b. induction 1; subst; try discriminate; [reflexivity|f_equal; auto]. Qed.

Lemma concatM_both {A B} (f : A -> res (list B)) a b l x y : interleaved a b l -> concatM f a = Ok x -> concatM f b = Ok y ->
  exists z, concatM f l = Ok z /\ interleaved x y z.
Proof.
  intros H. revert x y. induction H as [|e a b l H IH|e a b l H IH]; cbn [concatM]; intros x y X Y.
  - injection X as <-. injection Y as <-. exists []. split; [reflexivity|constructor].
  - apply bind_ok in X as (u & E & X). apply bind_ok in X as (v & V & X). injection X as <-.
    destruct (IH v y V Y) as (z & -> & I). rewrite E. cbn. exists (u ++ z). split; [reflexivity|].
    exact (interleaved_app _ _ _ _ _ _ (interleaved_left u) I).
  - apply bind_ok in Y as (u & E & Y). apply bind_ok in Y as (v & V & Y). injection Y as <-.
    destruct (IH x v X V) as (z & -> & I). rewrite E. cbn. exists (u ++ z). split; [reflexivity|].
    exact (interleaved_app _ _ _ _ _ _ (interleaved_right u) I).
Qed.
Lemma concatM_parts {A B} (f : A -> res (list B)) a b l z : interleaved a b l -> concatM f l = Ok z ->
  exists x y, concatM f a = Ok x /\ concatM f b = Ok y /\ interleaved x y z.
Proof.
  intros H. revert z. induction H as [|e a b l H IH|e a b l H IH]; cbn [concatM]; intros z Z.
  - injection Z as <-. exists [], []. repeat split; constructor.
  - apply bind_ok in Z as (u & E & Z). apply bind_ok in Z as (v & V & Z). injection Z as <-.
    destruct (IH v V) as (x & y & -> & Y & I). rewrite E. cbn. exists (u ++ x), y. split; [reflexivity|]. split; [exact Y|].
    exact (interleaved_app _ _ _ _ _ _ (interleaved_left u) I).
  - apply bind_ok in Z as (u & E & Z). apply bind_ok in Z as (v & V & Z). injection Z as <-.
    destruct (IH v V) as (x & y & X & -> & I). rewrite E. cbn. exists x, (u ++ y). split; [exact X|]. split; [reflexivity|].
    exact (interleaved_app _ _ _ _ _ _ (interleaved_right u) I).
Qed.

(** ** The peripheral an entry of the index belongs to *)

Definition root (e : entry) : string :=
  match e with
  | InPeripheral k _ | InCluster k _ => bp_peripheral k
  | InRegister k _ => bp_peripheral (rg_block k)
  | InField k _ => bp_peripheral (rg_block (fp_register k))
  | InEnum k _ => bp_peripheral (rg_block (fp_register (ep_field k)))
  end.
Lemma concatM_forall {A B} (P : B -> Prop) (f : A -> res (list B)) l z : concatM f l = Ok z ->
  (forall x y, In x l -> f x = Ok y -> Forall P y) -> Forall P z.
Proof.
  revert z. induction l as [|x l IH]; cbn [concatM]; intros z Z H; [injection Z as <-; constructor|].
  apply bind_ok in Z as (u & E & Z). apply bind_ok in Z as (v & V & Z). injection Z as <-. apply Forall_app. split; [apply (H x); auto; now left|].
  apply (IH v V). intros x' y' I. apply H. now right.
Qed.
Lemma root_field path f ix : add_field path f = Ok ix -> Forall (fun e => root e = bp_peripheral (rg_block path)) ix.
Proof.
  unfold add_field. intros H. apply bind_ok in H as (ns & _ & H). injection H as <-.
  apply Forall_forall. intros e I. apply in_flat_map in I as (n & _ & I). unfold field_at in I.
  apply in_app_or in I as [I|[<-|[]]]; [|reflexivity]. apply in_flat_map in I as (v & _ & I).
  destruct (evs_name v); [|destruct I]. destruct I as [<-|[]]. reflexivity.
Qed.
Lemma root_register path r ix : add_register path r = Ok ix -> Forall (fun e => root e = bp_peripheral path) ix.
Proof.
  unfold add_register. intros H. apply bind_ok in H as (ns & _ & H). apply (concatM_forall _ _ _ _ H).
  intros n l _ L. unfold register_at in L. apply bind_ok in L as (fs & F & L). injection L as <-.
  apply Forall_app. split; [|now repeat constructor]. apply (concatM_forall _ _ _ _ F). intros f y _ Y. exact (root_field _ _ _ Y).
Qed.
Lemma root_rc rc : forall path ix, add_rc path rc = Ok ix -> Forall (fun e => root e = bp_peripheral path) ix.
Proof.
  induction rc as [r|c IH] using rc_tree_ind; intros path ix H; cbn [add_rc] in H; [exact (root_register _ _ _ H)|].
  rewrite Forall_forall in IH. apply bind_ok in H as (ns & _ & H). apply (concatM_forall _ _ _ _ H).
  intros n l _ L. cbv zeta in L. apply bind_ok in L as (rs & R & L). apply bind_ok in L as (cs & C & L). injection L as <-.
  apply Forall_app. split; [|apply Forall_app; split; [|now repeat constructor]].
  - apply (concatM_forall _ _ _ _ R). intros x y I Y. destruct x; [exact (IH _ I _ _ Y)|injection Y as <-; constructor].
  - apply (concatM_forall _ _ _ _ C). intros x y I Y. destruct x; [injection Y as <-; constructor|exact (IH _ I _ _ Y)].
Qed.
Lemma root_peripheral p ix : add_peripheral p = Ok ix -> Forall (fun e => is_called p_name p (root e)) ix.
Proof.
  unfold add_peripheral. intros H. apply bind_ok in H as (ns & N & H). apply (concatM_forall _ _ _ _ H).
  intros n l I L. cbv zeta in L. apply bind_ok in L as (rs & R & L). apply bind_ok in L as (cs & C & L). injection L as <-.
  pose proof (entry_names_sound _ _ _ _ N I) as K.
  apply Forall_app. split; [|apply Forall_app; split; [|constructor; [exact K|constructor]]].
  - apply (concatM_forall _ _ _ _ R). intros x y _ Y. eapply Forall_impl; [|exact (root_register _ _ _ Y)]. cbn. now intros e ->.
  - apply (concatM_forall _ _ _ _ C). intros x y _ Y. eapply Forall_impl; [|exact (root_rc _ _ _ Y)]. cbn. now intros e ->.
Qed.
Lemma root_index ps ix : concatM add_peripheral ps = Ok ix -> Forall (fun e => exists p, In p ps /\ is_called p_name p (root e)) ix.
Proof.
  intros H. apply (concatM_forall _ _ _ _ H). intros p l I L. eapply Forall_impl; [|exact (root_peripheral _ _ L)]. cbn. eauto.
Qed.

(** ** What is found in a part is found in the whole *)

Definition le {A} (a b : res A) : Prop := forall x, a = Ok x -> b = Ok x.
Lemma le_refl {A} (a : res A) : le a a.
Proof. now intros x. Qed.
Lemma le_bind {A B} (a a' : res A) (f f' : A -> res B) : le a a' -> (forall x, a = Ok x -> le (f x) (f' x)) -> le (bind a f) (bind a' f').
Proof. intros H K y Y. apply bind_ok in Y as (x & X & Y). rewrite (H x X). cbn. exact (K x X y Y). Qed.
Lemma le_concatM {A B} (f f' : A -> res (list B)) l : (forall x, le (f x) (f' x)) -> le (concatM f l) (concatM f' l).
Proof.
  intros H. induction l as [|x l IH]; cbn [concatM]; [apply le_refl|]. apply le_bind; [apply H|]. intros a _. apply le_bind; [exact IH|].
  intros b _. apply le_refl.
Qed.
Lemma le_mapM {A B} (f f' : A -> res B) l : (forall x, le (f x) (f' x)) -> le (mapM f l) (mapM f' l).
Proof.
  intros H. induction l as [|x l IH]; cbn [mapM]; [apply le_refl|]. apply le_bind; [apply H|]. intros a _. apply le_bind; [exact IH|].
  intros b _. apply le_refl.
Qed.

Section Part.
  Variable m : mode.
  Variables ix other ix' : index.
  Hypothesis I : interleaved ix other ix'.
  Hypothesis apart_ : forall e e', In e ix -> In e' other -> root e = root e' -> False.

  Lemma lookup_part {A} (f : entry -> option A) : (forall e, In e other -> f e = None) -> lookup f ix' = lookup f ix.
  Proof.
    intros H. clear apart_. revert H. induction I as [|e a b l K IH|e a b l K IH]; intros H; cbn [lookup]; [reflexivity|now rewrite (IH K H)|].
    rewrite (IH K) by (intros e' J; apply H; now right). rewrite (H e) by (now left). now destruct (lookup f a).
  Qed.
  (** If something belongs to the root of [q] then nothing of the other part does. *)
  Definition known (n : string) : Prop := exists e, In e ix /\ root e = n.
  Lemma known_enum q : known (bp_peripheral (rg_block (fp_register (ep_field q)))) -> ix_enum ix' q = ix_enum ix q.
  Proof.
    intros (e & E & R). unfold ix_enum. apply lookup_part. intros e' O. destruct e' as [| | | |k v]; try reflexivity.
    destruct (ep_eqb k q) eqn:Q; [|reflexivity]. apply ep_eqb_eq in Q. subst k. destruct (apart_ e _ E O). exact R.
  Qed.
  Ltac hit := match goal with H : lookup _ ix = Some _ |- _ => rewrite <- H; apply lookup_part; intros e' O;
    apply lookup_some in H as (e & E & H); destruct e as [k x0|k x0|k x0|k x0|k x0]; try discriminate H;
    destruct e' as [k' x1|k' x1|k' x1|k' x1|k' x1]; try reflexivity end.
  Lemma hit_peripheral q x : ix_peripheral ix q = Some x -> ix_peripheral ix' q = Some x.
  Proof.
    unfold ix_peripheral. intros H. hit. destruct (bp_eqb k q) eqn:Q; [|discriminate H]. destruct (bp_eqb k' q) eqn:Q'; [|reflexivity].
    apply bp_eqb_eq in Q, Q'. subst. destruct (apart_ _ _ E O eq_refl).
  Qed.
  Lemma hit_cluster q x : ix_cluster ix q = Some x -> ix_cluster ix' q = Some x.
  Proof.
    unfold ix_cluster. intros H. hit. destruct (bp_eqb k q) eqn:Q; [|discriminate H]. destruct (bp_eqb k' q) eqn:Q'; [|reflexivity].
    apply bp_eqb_eq in Q, Q'. subst. destruct (apart_ _ _ E O eq_refl).
  Qed.
  Lemma hit_register q x : ix_register ix q = Some x -> ix_register ix' q = Some x /\ known (bp_peripheral (rg_block q)).
  Proof.
    unfold ix_register. intros H. split.
    - hit. destruct (rg_eqb k q) eqn:Q; [|discriminate H]. destruct (rg_eqb k' q) eqn:Q'; [|reflexivity].
      apply rg_eqb_eq in Q, Q'. subst. destruct (apart_ _ _ E O eq_refl).
    - apply lookup_some in H as (e & E & H). destruct e; try discriminate H. destruct (rg_eqb path q) eqn:Q; [|discriminate H].
      apply rg_eqb_eq in Q. subst. now exists (InRegister q r).
  Qed.
  Lemma hit_field q x : ix_field ix q = Some x -> ix_field ix' q = Some x.
  Proof.
    unfold ix_field. intros H. hit. destruct (fp_eqb k q) eqn:Q; [|discriminate H]. destruct (fp_eqb k' q) eqn:Q'; [|reflexivity].
    apply fp_eqb_eq in Q, Q'. subst. destruct (apart_ _ _ E O eq_refl).
  Qed.
  Lemma hit_enum q x : ix_enum ix q = Some x -> ix_enum ix' q = Some x.
  Proof.
    unfold ix_enum. intros H. hit. destruct (ep_eqb k q) eqn:Q; [|discriminate H]. destruct (ep_eqb k' q) eqn:Q'; [|reflexivity].
    apply ep_eqb_eq in Q, Q'. subst. destruct (apart_ _ _ E O eq_refl).
  Qed.
  Lemma le_found {A} (o o' : option A) e : (forall x, o = Some x -> o' = Some x) -> le (ok_or o e) (ok_or o' e).
  Proof. intros H x. destruct o as [y|]; [|discriminate]. now rewrite (H y eq_refl). Qed.

  Lemma le_derive_peripheral k : forall p s, le (derive_peripheral ix k p s) (derive_peripheral ix' k p s).
  Proof.
    induction k as [|k IH]; intros p s; cbn [derive_peripheral]; [apply le_refl|]. destruct (seqb _ _); [apply le_refl|].
    apply le_bind; [apply le_found, hit_peripheral|]. intros x _. destruct (p_derived_from (info x)); [apply IH|apply le_refl].
  Qed.
  Lemma le_derive_cluster k : forall p s b, le (derive_cluster ix k p s b) (derive_cluster ix' k p s b).
  Proof.
    induction k as [|k IH]; intros p s b; cbn [derive_cluster]; [apply le_refl|]. apply le_bind; [apply le_refl|]. intros q _.
    destruct (_ && _); [apply le_refl|].
    apply le_bind; [apply le_found, hit_cluster|]. intros x _. destruct (c_derived_from (info x)); [apply IH|apply le_refl].
  Qed.
  Lemma le_derive_register k : forall p s b, le (derive_register ix k p s b) (derive_register ix' k p s b).
  Proof.
    induction k as [|k IH]; intros p s b; cbn [derive_register]; [apply le_refl|]. apply le_bind; [apply le_refl|]. intros q _.
    destruct (_ && _); [apply le_refl|].
    apply le_bind; [apply le_found; intros x X; now apply hit_register|]. intros x _. destruct (r_derived_from (info x)); [apply IH|apply le_refl].
  Qed.
  Lemma le_derive_field k : forall p s b, le (derive_field ix k p s b) (derive_field ix' k p s b).
  Proof.
    induction k as [|k IH]; intros p s b; cbn [derive_field]; [apply le_refl|]. apply le_bind; [apply le_refl|]. intros q _.
    destruct (_ && _); [apply le_refl|].
    apply le_bind; [apply le_found, hit_field|]. intros x _. destruct (f_derived_from (info x)); [apply IH|apply le_refl].
  Qed.
  Lemma enum_in_fields_part rd dn fs : known (bp_peripheral (rg_block rd)) -> enum_in_fields ix' rd dn fs = enum_in_fields ix rd dn fs.
  Proof. intros N. induction fs as [|f fs IH]; cbn [enum_in_fields]; [reflexivity|]. now rewrite known_enum, IH by exact N. Qed.
  Lemma le_derive_enum k : forall e s b, le (derive_enum ix k e s b) (derive_enum ix' k e s b).
  Proof.
    induction k as [|k IH]; intros e s b; cbn [derive_enum]; [apply le_refl|]. destruct (is_name _ _); [apply le_refl|].
    apply le_bind; [apply le_refl|]. intros q _ x H. apply bind_ok in H as (found & F & H). destruct found as [[v ep]|]; [|discriminate H].
    assert (F' : match pop (fst q) with
            | None =>
                Ok (match ix_register ix' (fp_register b) with
                    | Some r => enum_in_fields ix' (fp_register b) (snd q) (r_fields_iter (info r))
                    | None => None
                    end)
            | Some (v, fdname) =>
                let* fdpath :=
                  if is_nil v then Ok (new_field (fp_register b) fdname)
                  else
                    let* rq := bp_parse_vec v in
                    let block := opt_default (rg_block (fp_register b)) (fst rq) in
                    Ok (FieldPath (new_register block (snd rq)) fdname) in
                if fp_eqb fdpath b && is_name (snd q) (evs_name e)
                then Err (ESelfDerived KValues (fp_show b ++ "." ++ snd q)%string)
                else
                  let epath := EnumPath fdpath (snd q) in
                  Ok (option_map (fun d => (d, epath)) (ix_enum ix' epath))
            end = Ok (Some (v, ep))).
    { cbv zeta in F |- *. destruct (pop (fst q)) as [[w fd]|].
      - apply bind_ok in F as (fdp & -> & F). cbn [bind]. destruct (_ && _); [discriminate F|]. cbv zeta in *.
        destruct (ix_enum ix _) as [y|] eqn:Y; [|discriminate F]. now rewrite (hit_enum _ _ Y).
      - destruct (ix_register ix (fp_register b)) as [r|] eqn:R; [|discriminate F]. apply hit_register in R as [-> N].
        now rewrite enum_in_fields_part. }
    cbv zeta in F' |- *. rewrite F'. cbn [bind]. destruct (evs_derived_from v); [now apply IH|exact H].
  Qed.
  Lemma le_expand_field k path f : le (expand_field m ix k path f) (expand_field m ix' k path f).
  Proof.
    unfold expand_field. apply le_bind; [destruct (f_derived_from (info f)); [apply le_derive_field|apply le_refl]|]. intros q _.
    cbv zeta. apply le_bind; [|intros; apply le_refl]. apply le_mapM. intros e. unfold expand_enum.
    destruct (evs_derived_from e); [|apply le_refl]. apply le_bind; [apply le_derive_enum|intros; apply le_refl].
  Qed.
  Lemma le_expand_register k path r : le (expand_register_array m ix k path r) (expand_register_array m ix' k path r).
  Proof.
    unfold expand_register_array. apply le_bind; [destruct (r_derived_from (info r)); [apply le_derive_register|apply le_refl]|]. intros q _.
    cbv zeta. apply le_bind; [|intros; apply le_refl]. destruct (r_fields (info (fst q))); [|apply le_refl].
    apply le_bind; [apply le_concatM; intros f; apply le_expand_field|intros; apply le_refl].
  Qed.
  Lemma le_expand_rc k : forall path rc, le (expand_rc m ix k path rc) (expand_rc m ix' k path rc).
  Proof.
    induction k as [|k IH]; intros path rc; cbn [expand_rc]; [apply le_refl|]. destruct rc as [r|c]; [apply le_expand_register|].
    apply le_bind; [destruct (c_derived_from (info c)); [apply le_derive_cluster|apply le_refl]|]. intros q _. cbv zeta.
    apply le_bind; [apply le_concatM; intros x; apply IH|intros; apply le_refl].
  Qed.
  Lemma le_expand_peripheral k p : le (expand_peripheral m ix k p) (expand_peripheral m ix' k p).
  Proof.
    unfold expand_peripheral. apply le_bind; [destruct (p_derived_from (info p)); [apply le_derive_peripheral|apply le_refl]|]. intros q _.
    cbv zeta. apply le_bind; [|intros; apply le_refl]. destruct (p_registers (info (fst q))); [|apply le_refl].
    apply le_bind; [apply le_concatM; intros f; apply le_expand_rc|intros; apply le_refl].
  Qed.
End Part.

Lemma indexes_apart a b ia ib : strangers a b -> concatM add_peripheral a = Ok ia -> concatM add_peripheral b = Ok ib ->
  forall e e', In e ia -> In e' ib -> root e = root e' -> False.
Proof.
  intros S A B e e' I J R. apply root_index in A, B. rewrite Forall_forall in A, B.
  destruct (A e I) as (p & P & C), (B e' J) as (q & Q & D). rewrite <- R in D. exact (S p q _ P Q C D).
Qed.

Lemma expand_union m fuel a b d ea eb : interleaved (d_peripherals a) (d_peripherals b) (d_peripherals d) ->
  strangers (d_peripherals a) (d_peripherals b) -> expand m fuel a = Ok ea -> expand m fuel b = Ok eb ->
  exists e, expand m fuel d = Ok e /\ interleaved (d_peripherals ea) (d_peripherals eb) (d_peripherals e).
Proof.
  unfold expand, index_create. intros I S A B.
  apply bind_ok in A as (ia & IA & A). apply bind_ok in A as (pa & PA & A). injection A as <-.
  apply bind_ok in B as (ib & IB & B). apply bind_ok in B as (pb & PB & B). injection B as <-.
  destruct (concatM_both _ _ _ _ _ _ I IA IB) as (ix & -> & X). cbn [bind].
  pose proof (indexes_apart _ _ _ _ S IA IB) as Z.
  assert (PA' : concatM (expand_peripheral m ix fuel) (d_peripherals a) = Ok pa).
  { revert PA. apply le_concatM. intros p. now apply (le_expand_peripheral m ia ib ix X Z). }
  assert (PB' : concatM (expand_peripheral m ix fuel) (d_peripherals b) = Ok pb).
  { revert PB. apply le_concatM. intros p. apply (le_expand_peripheral m ib ia ix (interleaved_swap _ _ _ X)).
    intros e e' E E' R. exact (Z e' e E' E (eq_sym R)). }
  destruct (concatM_both _ _ _ _ _ _ I PA' PB') as (l & -> & L). cbn [bind]. eexists. split; [reflexivity|exact L].
Qed.
Lemma expand_part m fuel a b d ea e : interleaved (d_peripherals a) b (d_peripherals d) ->
  strangers (d_peripherals a) b -> expand m fuel a = Ok ea -> expand m fuel d = Ok e ->
  exists l, interleaved (d_peripherals ea) l (d_peripherals e).
Proof.
  unfold expand, index_create. intros I S A D.
  apply bind_ok in A as (ia & IA & A). apply bind_ok in A as (pa & PA & A). injection A as <-.
  apply bind_ok in D as (ix & ID & D). apply bind_ok in D as (pd & PD & D). injection D as <-.
  destruct (concatM_parts _ _ _ _ _ I ID) as (ia' & ib & IA' & IB & X). rewrite IA in IA'. injection IA' as <-.
  destruct (concatM_parts _ _ _ _ _ I PD) as (pa' & pb & PA' & _ & L). exists pb. cbn.
  assert (PA2 : concatM (expand_peripheral m ix fuel) (d_peripherals a) = Ok pa).
  { revert PA. apply le_concatM. intros p. apply (le_expand_peripheral m ia ib ix X). exact (indexes_apart _ _ _ _ S IA IB). }
  rewrite PA2 in PA'. injection PA' as <-. exact L.
Qed.
