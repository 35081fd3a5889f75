(** Proofs for C87: validation goes through the rules in order. *)
From Verif Require Import BaseFacts Types Names Validate SpecArray ArrayProofs SpecValidate NameProofs TreeFacts ValidateProofs SpecBreach.

Section Walk.
  Context {A : Type} (right : A -> Prop) (wrong : A -> err -> Prop).
  Notation fb := (first_bad right wrong).
  Lemma fb_nil : fb [] (Ok tt).
  Proof. left. auto. Qed.
  Lemma fb_app a b r s : fb a r -> fb b s -> fb (a ++ b) (bind r (fun _ => s)).
  Proof.
    intros [[-> F]|(before & x & after & e & -> & F & W & ->)] S; cbn [bind].
    - destruct S as [[-> G]|(before & x & after & e & -> & G & W & ->)].
      + left. split; [reflexivity|]. now apply Forall_app.
      + right. exists (a ++ before), x, after, e. rewrite <- app_assoc. split; [reflexivity|]. split; [now apply Forall_app|]. auto.
    - right. exists before, x, (after ++ b), e. rewrite <- app_assoc. cbn. auto.
  Qed.
  Lemma fb_cons x b r s : fb [x] r -> fb b s -> fb (x :: b) (bind r (fun _ => s)).
  Proof. apply (fb_app [x]). Qed.
  Lemma fb_all xs : Forall right xs -> fb xs (Ok tt).
  Proof. left. auto. Qed.
  Lemma fb_iter {B} (g : B -> list A) (f : B -> res unit) l : (forall b, In b l -> fb (g b) (f b)) -> fb (flat_map g l) (iterM f l).
  Proof.
    induction l as [|b l IH]; intros H; cbn; [apply fb_nil|]. apply fb_app; [apply H; now left|]. apply IH. intros; apply H; now right.
  Qed.
  Lemma fb_last xs x r s : fb xs r -> fb [x] s -> fb (xs ++ [x]) (bind r (fun _ => s)).
  Proof. apply fb_app. Qed.
  Lemma fb_fun xs r s : (forall x e, right x -> ~ wrong x e) -> (forall x e e', wrong x e -> wrong x e' -> e = e') -> fb xs r -> fb xs s -> r = s.
  Proof.
    intros H U. revert r s. induction xs as [|x xs IH]; intros r s R S.
    - destruct R as [[-> _]|(b & y & a & e & E & _)]; [|destruct b; discriminate]. destruct S as [[-> _]|(b & y & a & e & E & _)]; [auto|destruct b; discriminate].
    - assert (T : forall t, fb (x :: xs) t -> (right x /\ fb xs t) \/ (exists e, wrong x e /\ t = Err e)).
      { intros t [[-> F]|(b & y & a & e & E & F & W & ->)].
        - inversion F; subst. left. split; [assumption|]. left. auto.
        - destruct b as [|z b]; cbn in E; injection E as -> ->; [right; eauto|]. inversion F; subst. left. split; [assumption|]. right. exists b, y, a, e. auto. }
      destruct (T r R) as [[X R']|(e & X & ->)], (T s S) as [[Y S']|(e' & Y & ->)].
      + auto.
      + destruct (H _ _ X Y).
      + destruct (H _ _ Y X).
      + f_equal. eauto.
  Qed.
End Walk.

(** ** Single rules *)
Notation by_rules := (first_bad kept broken).
Lemma by_check (c : Prop) b e : (b = true -> ~ c) -> (b = false -> c) -> by_rules [(c, e)] (check b e).
Proof.
  intros T F. destruct b; cbn.
  - left. split; [reflexivity|]. constructor; [exact (T eq_refl)|constructor].
  - right. exists [], (c, e), [], e. split; [reflexivity|]. split; [constructor|]. split; [|reflexivity]. split; [exact (F eq_refl)|reflexivity].
Qed.
Lemma by_when b rs r : (b = true -> by_rules rs r) -> (b = false -> Forall kept rs) -> by_rules rs (when b r).
Proof. destruct b; cbn; intros H K; [auto|apply fb_all; auto]. Qed.
Lemma by_plain l tag n : by_rules [plain_rule l tag n] (when (is_strict l) (check_name n tag)).
Proof.
  apply by_when.
  - intros S. apply strict_iff in S. destruct (check_name n tag) as [[]|e|p] eqn:E.
    + apply check_name_ok in E. left. split; [reflexivity|]. constructor; [|constructor]. intros [_ X]. auto.
    + apply check_name_err in E as [X ->]. right. exists [], (plain_rule l tag n), [], (EName n tag). split; [reflexivity|]. split; [constructor|]. split; [|reflexivity]. split; [split; assumption|reflexivity].
    + unfold check_name, check in E. destruct (re_match _ _); discriminate.
  - intros S. constructor; [|constructor]. intros [-> _]. discriminate.
Qed.
Lemma by_array l tag n : by_rules [array_rule l tag n] (when (is_strict l) (check_dimable_name n tag)).
Proof.
  apply by_when.
  - intros S. apply strict_iff in S. destruct (check_dimable_name n tag) as [[]|e|p] eqn:E.
    + apply check_dimable_ok in E. left. split; [reflexivity|]. constructor; [|constructor]. intros [_ X]. auto.
    + apply check_dimable_err in E as [X ->]. right. exists [], (array_rule l tag n), [], (EName n tag). split; [reflexivity|]. split; [constructor|]. split; [|reflexivity]. split; [split; assumption|reflexivity].
    + unfold check_dimable_name, check in E. destruct (re_match _ _); discriminate.
  - intros S. constructor; [|constructor]. intros [-> _]. discriminate.
Qed.
Lemma by_pieces l s ps : cut "." s ps -> by_rules (map (array_rule l "derivedFrom") ps) (when (is_strict l) (check_derived_name s "derivedFrom")).
Proof.
  intros C. apply cut_split in C as ->. unfold check_derived_name. generalize (split "." s). intros ps.
  destruct (is_strict l) eqn:S; cbn [when].
  - assert (E : map (array_rule l "derivedFrom") ps = flat_map (fun n => [array_rule l "derivedFrom" n]) ps)
      by (induction ps; cbn; [reflexivity|f_equal; assumption]).
    rewrite E. apply fb_iter. intros n _. pose proof (by_array l "derivedFrom" n) as H. now rewrite S in H.
  - apply fb_all. apply Forall_forall. intros x I. apply in_map_iff in I as (n & <- & _). intros [-> _]. discriminate.
Qed.
Lemma by_option {A} (f : A -> rule) (g : A -> res unit) o : (forall a, by_rules [f a] (g a)) -> by_rules (of_option o f) (iterM_opt g o).
Proof. destruct o; cbn; intros H; [apply H|apply fb_nil]. Qed.
Lemma when_bind b r s : when b (bind r (fun _ => s)) = bind (when b r) (fun _ => when b s).
Proof. now destruct b. Qed.
Lemma when_opt {A} b (f : A -> res unit) o : when b (iterM_opt f o) = iterM_opt (fun a => when b (f a)) o.
Proof. now destruct b, o. Qed.
Lemma when_iter {A} b (f : A -> res unit) l : when b (iterM f l) = iterM (fun a => when b (f a)) l.
Proof. destruct b; cbn; [reflexivity|]. induction l; cbn; auto. Qed.
Lemma when_when a b r : when a (when b r) = when (a && b) r.
Proof. now destruct a, b. Qed.
Lemma strict_only l : negb (is_disabled l) && is_strict l = is_strict l.
Proof. now destruct l. Qed.
Lemma by_strict (l : level) (c : Prop) b e : (b = true -> ~ c) -> (b = false -> c) -> by_rules [(l = Strict /\ c, e)] (when (is_strict l) (check b e)).
Proof.
  intros T F. apply by_when.
  - intros S. apply strict_iff in S. apply by_check; intros B; [intros [_ X]; exact (T B X)|auto].
  - intros S. constructor; [|constructor]. intros [-> _]. discriminate.
Qed.
Lemma by_checked (l : level) (c : Prop) b e : (b = true -> ~ c) -> (b = false -> c) -> by_rules [(checked l /\ c, e)] (when (negb (is_disabled l)) (check b e)).
Proof.
  intros T F. apply by_when.
  - intros S. apply checked_iff in S. apply by_check; intros B; [intros [_ X]; exact (T B X)|auto].
  - intros S. constructor; [|constructor]. intros [X _]. apply checked_iff in X. congruence.
Qed.

(** ** Elements *)
Lemma props_judged l p : judged l (EProps p) (rp_validate l p).
Proof.
  exists []. split; [reflexivity|]. cbn [rules]. unfold props_rules, rp_validate, check_reset_value. rewrite when_bind, when_when, strict_only, when_bind.
  apply fb_app; [|apply fb_app].
  - destruct (rp_size p) as [s|]; [destruct (rp_reset_value p) as [v|]|]; [|destruct (is_disabled l); apply fb_nil..].
    apply by_checked; intros B; [apply size_le in B; lia|]. apply N.nlt_ge. intros X. apply size_le in X. congruence.
  - destruct (rp_size p) as [s|]; [destruct (rp_reset_mask p) as [v|]|]; [|destruct (is_strict l); apply fb_nil..].
    apply by_strict; intros B; [apply size_le in B; lia|]. apply N.nlt_ge. intros X. apply size_le in X. congruence.
  - destruct (rp_reset_value p) as [v|]; [destruct (rp_reset_mask p) as [k|]|]; [|destruct (is_strict l); apply fb_nil..].
    apply by_strict; intros B.
    + intros (i & X & Y). apply land_sub with (i := i) in B; [congruence|assumption].
    + assert (N : N.ldiff v k <> 0).
      { intros Z. assert (X : (N.land v k =? v) = true); [|congruence]. apply land_sub. intros i Hi.
        destruct (N.testbit k i) eqn:K; [reflexivity|]. assert (T : N.testbit (N.ldiff v k) i = true) by (rewrite N.ldiff_spec, Hi, K; reflexivity).
        now rewrite Z, N.bits_0 in T. }
      exists (N.log2 (N.ldiff v k)). pose proof (N.bit_log2 _ N) as T. rewrite N.ldiff_spec in T. apply andb_true_iff in T as [T1 T2].
      split; [exact T1|]. now destruct (N.testbit k _).
Qed.
Lemma value_judged l e : judged l (EValue e) (ev_validate l e).
Proof.
  exists []. split; [reflexivity|]. cbn [rules]. unfold value_rules, ev_validate. rewrite when_bind, when_when, strict_only.
  apply fb_cons; [apply by_plain|]. unfold ev_default.
  assert (K : forall s, Forall kept s -> by_rules s (Ok tt)) by (intros; now apply fb_all).
  destruct (ev_value e) as [v|] eqn:V; cbn [is_some].
  - assert (X : kept (checked l /\ Some v = None /\ ev_is_default e <> Some true, EEvAbsentValue)) by (intros (_ & Y & _); discriminate).
    destruct (ev_is_default e) as [[]|] eqn:D.
    + destruct l; cbn [when negb is_disabled is_strict].
      * apply K. constructor; [exact X|]. constructor; [|constructor]. intros (Y & _). discriminate.
      * apply K. constructor; [exact X|]. constructor; [|constructor]. intros (Y & _). discriminate.
      * right. do 4 eexists. split; [|split; [|split]]; [exact (eq_refl ([_] ++ [_]))|constructor; [exact X|constructor]| |reflexivity].
        split; [|reflexivity]. cbn. repeat split. discriminate.
    + destruct l; cbn [when negb is_disabled]; apply K; (constructor; [exact X|]); (constructor; [|constructor]); intros (_ & _ & Y); discriminate.
    + destruct l; cbn [when negb is_disabled]; apply K; (constructor; [exact X|]); (constructor; [|constructor]); intros (_ & _ & Y); discriminate.
  - assert (Y : kept (l = Strict /\ @None N <> None /\ ev_is_default e = Some true, EEvValueAndDefault None)) by (intros (_ & Z & _); congruence).
    destruct (is_disabled l) eqn:D; cbn [when negb].
    { apply K. constructor; [|constructor; [exact Y|constructor]]. intros (C & _). apply checked_iff in C. rewrite D in C. discriminate. }
    destruct (ev_is_default e) as [[]|] eqn:E.
    + apply K. constructor; [|constructor; [exact Y|constructor]]. intros (_ & _ & C). congruence.
    + right. do 4 eexists. split; [exact (eq_refl ([] ++ _))|]. split; [constructor|]. split; [|reflexivity]. split; [|reflexivity]. cbn.
      split; [apply checked_iff; now rewrite D|]. split; [reflexivity|discriminate].
    + right. do 4 eexists. split; [exact (eq_refl ([] ++ _))|]. split; [constructor|]. split; [|reflexivity]. split; [|reflexivity]. cbn.
      split; [apply checked_iff; now rewrite D|]. split; [reflexivity|discriminate].
Qed.
Lemma pieces_exist x : exists ps, pieces_of x ps.
Proof. unfold pieces_of. destruct (reference_of x) as [s|]; [exists (split "." s); apply split_cut|now exists []]. Qed.
Lemma values_judged l e : judged l (EValues e) (evs_validate l e).
Proof.
  destruct (pieces_exist (EValues e)) as [ps P]. exists ps. split; [exact P|]. unfold pieces_of in P. cbn in P.
  cbn [rules]. unfold values_rules, evs_validate. rewrite when_bind, when_when, strict_only, when_opt. apply fb_app.
  - apply by_option. intros n. apply by_plain.
  - destruct (evs_derived_from e) as [s|]; cbn [or_rule].
    + rewrite when_when, strict_only. now apply by_pieces.
    + apply by_checked; destruct (evs_values e); cbn; congruence.
Qed.
Lemma field_judged l f : judged l (EField f) (field_validate l f).
Proof.
  destruct (pieces_exist (EField f)) as [ps P]. exists ps. split; [exact P|]. unfold pieces_of in P. cbn in P.
  cbn [rules]. unfold field_rules, field_validate. cbv zeta. set (w := br_width (f_bit_range f)).
  match goal with |- by_rules ?rs (if is_disabled l then Ok tt else ?r) =>
    assert (W : (if is_disabled l then Ok tt else r) = when (negb (is_disabled l)) r) by (now destruct (is_disabled l)); rewrite W; clear W end.
  rewrite !when_bind, !when_when, !strict_only, when_opt.
  assert (N : forall c e b, (b = true -> ~ c) -> (b = false -> c) ->
    by_rules [((checked l /\ w < 64) /\ c, e)] (when (negb (is_disabled l) && (w <? 64)) (check b e))).
  { intros c e b T F. apply by_when.
    - intros B. apply andb_true_iff in B as [B1 B2]. apply checked_iff in B1. apply N.ltb_lt in B2.
      apply by_check; intros B; [intros [_ X]; exact (T B X)|auto].
    - intros B. constructor; [|constructor]. intros [[X Y] _]. apply checked_iff in X. apply N.ltb_lt in Y. rewrite X, Y in B. discriminate. }
  match goal with |- by_rules (?a :: ?b ++ ?c :: ?d ++ ?e :: ?g) _ =>
    replace (a :: b ++ c :: d ++ e :: g) with (([a] ++ b) ++ ([c] ++ (d ++ ([e] ++ g)))) by now rewrite <- app_assoc end.
  apply fb_app; [apply fb_app|apply fb_app; [|apply fb_app; [|apply fb_app]]].
  - apply by_array.
  - destruct (f_derived_from f) as [s|]; cbn [iterM_opt or_rule]; [now apply by_pieces|apply fb_nil].
  - apply by_checked; intros B; [|destruct (N.eqb_spec w 0); [assumption|discriminate]]. intros X. rewrite X in B. discriminate.
  - rewrite when_iter. apply fb_iter. intros es _. unfold evs_check_range. rewrite when_iter. apply fb_iter. intros e _. unfold ev_check_range.
    destruct (ev_value e) as [v|]; cbn [of_option]; [|destruct (_ && _); apply fb_nil].
    apply N; unfold in_range; cbn [N.leb]; intros B.
    + apply andb_true_iff in B as [_ B]. apply N.ltb_lt in B. lia.
    + apply andb_false_iff in B as [B|B]; [apply N.leb_gt in B; lia|apply N.ltb_ge in B; exact B].
  - assert (X : forall (r : res unit), (r = Ok tt -> compatible_usages (f_enumerated_values f)) -> (r <> Ok tt -> r = Err EIncompatibleUsages /\ ~ compatible_usages (f_enumerated_values f)) ->
      by_rules [(l = Strict /\ ~ compatible_usages (f_enumerated_values f), EIncompatibleUsages)] (when (is_strict l) r)).
    { intros r T F. apply by_when.
      - intros S. apply strict_iff in S. destruct r as [[]|e|p].
        + left. split; [reflexivity|]. constructor; [|constructor]. intros [_ X]. auto.
        + destruct F as [F1 F2]; [discriminate|]. injection F1 as ->. right. exists [], (l = Strict /\ ~ compatible_usages (f_enumerated_values f), EIncompatibleUsages), [], EIncompatibleUsages.
          split; [reflexivity|]. split; [constructor|]. split; [|reflexivity]. split; [split; assumption|reflexivity].
        + destruct F as [F1 F2]; discriminate.
      - intros S. constructor; [|constructor]. intros [-> _]. discriminate. }
    apply X; clear X.
    + destruct (f_enumerated_values f) as [|e1 [|e2 [|]]]; cbn; auto; [|discriminate].
      rewrite <- !reads_spec, <- !writes_spec. destruct (reads_or_unknown (evs_get_usage e1)), (reads_or_unknown (evs_get_usage e2)),
        (writes_or_unknown (evs_get_usage e1)), (writes_or_unknown (evs_get_usage e2)); cbn; auto; discriminate.
    + destruct (f_enumerated_values f) as [|e1 [|e2 [|]]]; cbn; try congruence; [|auto].
      rewrite <- !reads_spec, <- !writes_spec. destruct (reads_or_unknown (evs_get_usage e1)), (reads_or_unknown (evs_get_usage e2)),
        (writes_or_unknown (evs_get_usage e1)), (writes_or_unknown (evs_get_usage e2)); cbn; intros H; try congruence; (split; [reflexivity|]); intuition discriminate.
  - destruct (f_write_constraint f) as [[| |lo hi]|]; try (destruct (is_disabled l); apply fb_nil).
    rewrite when_when. unfold wc_check_range.
    assert (E : (if hi <? lo then Err (EWcReversedRange lo hi) else iterM (fun v => check (in_range 0 (2 ^ w) v) (EWcOutOfRange v 0 (2 ^ w))) [lo; hi]) =
      bind (check (negb (hi <? lo)) (EWcReversedRange lo hi)) (fun _ =>
      bind (check (in_range 0 (2 ^ w) lo) (EWcOutOfRange lo 0 (2 ^ w))) (fun _ => check (in_range 0 (2 ^ w) hi) (EWcOutOfRange hi 0 (2 ^ w))))).
    { cbn [iterM]. destruct (hi <? lo); cbn; [reflexivity|]. destruct (in_range 0 (2 ^ w) lo); cbn; [|reflexivity]. now destruct (in_range 0 (2 ^ w) hi). }
    rewrite E, !when_bind. clear E.
    assert (R : forall v, (in_range 0 (2 ^ w) v = true -> ~ 2 ^ w <= v) /\ (in_range 0 (2 ^ w) v = false -> 2 ^ w <= v)).
    { intros v. unfold in_range. split; intros B.
      - apply andb_true_iff in B as [_ B]. apply N.ltb_lt in B. lia.
      - apply andb_false_iff in B as [B|B]; [apply N.leb_gt in B; lia|apply N.ltb_ge in B; exact B]. }
    apply fb_cons; [|apply fb_cons]; apply N; try apply R.
    + intros B. apply negb_true_iff in B. apply N.ltb_ge in B. lia.
    + intros B. apply negb_false_iff in B. now apply N.ltb_lt in B.
Qed.
Lemma register_judged l r : judged l (ERegister r) (register_validate l r).
Proof.
  destruct (pieces_exist (ERegister r)) as [ps P]. exists ps. split; [exact P|]. unfold pieces_of in P. cbn in P.
  cbn [rules]. unfold register_rules, register_validate. rewrite !when_bind, !when_when, !strict_only, !when_opt.
  match goal with |- by_rules (?a :: ?b ++ ?c ++ ?d) _ => replace (a :: b ++ c ++ d) with (([a] ++ (b ++ c)) ++ d) by (cbn; now rewrite <- app_assoc) end.
  apply fb_app; [apply fb_app; [|apply fb_app]|].
  - apply by_array.
  - apply by_option. intros n. apply by_plain.
  - apply by_option. intros n. apply by_array.
  - destruct (r_derived_from r) as [s|]; cbn [or_rule].
    + rewrite when_when, strict_only. now apply by_pieces.
    + destruct (r_fields r) as [[|f fs]|]; destruct l; cbn; try (apply fb_all; constructor; [|constructor]; intros [? ?]; discriminate).
      right. exists [], (Strict = Strict /\ @Some (list field) [] = Some [], EEmptyFields), [], EEmptyFields.
      split; [reflexivity|]. split; [constructor|]. split; [|reflexivity]. split; [split; reflexivity|reflexivity].
Qed.
Lemma cluster_judged l c : judged l (ECluster c) (cluster_validate l c).
Proof.
  destruct (pieces_exist (ECluster c)) as [ps P]. exists ps. split; [exact P|]. unfold pieces_of in P. cbn in P.
  cbn [rules]. unfold cluster_rules, cluster_validate. rewrite !when_bind, !when_when, !strict_only.
  apply fb_cons; [apply by_array|].
  destruct (c_derived_from c) as [s|]; cbn [or_rule].
  - rewrite when_when, strict_only. now apply by_pieces.
  - destruct (c_children c) as [|x xs] eqn:E; destruct l; cbn; try (apply fb_all; constructor; [|constructor]; intros [? ?]; congruence).
    right. exists [], (Strict = Strict /\ @nil register_cluster = [], EEmptyCluster), [], EEmptyCluster.
    split; [reflexivity|]. split; [constructor|]. split; [|reflexivity]. split; [split; reflexivity|reflexivity].
Qed.
Lemma peripheral_judged l p : judged l (EPeripheral p) (peripheral_validate l p).
Proof.
  exists []. split; [reflexivity|].
  cbn [rules]. unfold peripheral_rules, peripheral_validate. rewrite !when_bind, !when_when, !strict_only.
  apply fb_cons; [apply by_array|].
  destruct (p_derived_from p) as [s|].
  - rewrite when_when, strict_only. apply by_array.
  - destruct (p_registers p) as [[|x xs]|] eqn:E; destruct l; cbn; try (apply fb_all; constructor; [|constructor]; intros [? ?]; congruence).
    right. exists [], (Strict = Strict /\ @Some (list register_cluster) [] = Some [], EEmptyRegisters), [], EEmptyRegisters.
    split; [reflexivity|]. split; [constructor|]. split; [|reflexivity]. split; [split; reflexivity|reflexivity].
Qed.
Lemma device_judged l d : judged l (EDevice d) (device_validate l d).
Proof.
  exists []. split; [reflexivity|]. cbn [rules]. unfold device_rules, device_validate.
  apply by_checked; destruct (d_peripherals d); cbn; congruence.
Qed.

(** ** At most one verdict *)
Lemma pieces_fun x a b : pieces_of x a -> pieces_of x b -> a = b.
Proof. unfold pieces_of. destruct (reference_of x); [|congruence]. intros A B. apply cut_split in A, B. congruence. Qed.
Lemma judged_fun l x r s : judged l x r -> judged l x s -> r = s.
Proof.
  intros (ps & P & A) (qs & Q & B). rewrite (pieces_fun _ _ _ Q P) in B. revert A B. apply fb_fun.
  - intros y e K [Y _]. exact (K Y).
  - intros y e e' [_ ->] [_ ->]. reflexivity.
Qed.

(** ** Trees *)
Lemma walk_one l x r : judged l x r -> (r = Ok tt <-> element_ok l x) -> first_bad (element_ok l) (blamed l) [x] r.
Proof.
  intros J O. destruct r as [[]|e|p].
  - left. split; [reflexivity|]. constructor; [now apply O|constructor].
  - right. exists [], x, [], e. split; [reflexivity|]. split; [constructor|]. split; [exact J|reflexivity].
  - destruct J as (ps & _ & [[X _]|(a & y & b & e & _ & _ & _ & X)]); discriminate.
Qed.
Notation by_walk l := (first_bad (element_ok l) (blamed l)).
Lemma walk_props l p : by_walk l [EProps p] (rp_validate l p).
Proof. apply walk_one; [apply props_judged|apply rp_validate_ok]. Qed.
Lemma map_as_flat {A B} (f : A -> B) l : map f l = flat_map (fun a => [f a]) l.
Proof. induction l; cbn; [reflexivity|f_equal; assumption]. Qed.
Lemma walk_values l e : by_walk l (values_walk e) (evs_validate_all l e).
Proof.
  unfold values_walk, evs_validate_all. apply fb_app; [|apply walk_one; [apply values_judged|apply evs_validate_ok]].
  rewrite map_as_flat. apply fb_iter. intros v _. apply walk_one; [apply value_judged|apply ev_validate_ok].
Qed.
Lemma walk_field l f : by_walk l (field_walk f) (field_info_validate_all l f).
Proof.
  unfold field_walk, field_info_validate_all. apply fb_app; [|apply walk_one; [apply field_judged|apply field_validate_ok]].
  apply fb_iter. intros e _. apply walk_values.
Qed.
Lemma walk_register l r : by_walk l (register_walk r) (register_info_validate_all l r).
Proof.
  unfold register_walk, register_info_validate_all, r_fields_iter. apply fb_cons; [apply walk_props|].
  apply fb_app; [|apply walk_one; [apply register_judged|apply register_validate_ok]].
  replace (opt_default [] (r_fields r)) with (match r_fields r with Some fs => fs | None => [] end) by now destruct (r_fields r).
  apply fb_iter. intros f _. unfold field_validate_all. rewrite ma_validate_all_ok. apply walk_field.
Qed.
Lemma walk_rc l rc : by_walk l (rc_walk rc) (rc_validate_all l rc).
Proof.
  induction rc as [r|c IH] using rc_tree_ind; cbn [rc_validate_all rc_walk].
  - unfold register_validate_all. rewrite ma_validate_all_ok. apply walk_register.
  - assert (DV : match c with Array _ d => de_validate l d | Single _ => Ok tt end = Ok tt) by (destruct c; reflexivity).
    rewrite DV. cbn [bind]. apply fb_cons; [apply walk_props|]. apply fb_app; [|apply fb_app].
    + apply fb_iter. rewrite forall_in in IH. intros [r|c'] I; [exact (IH _ I)|apply fb_nil].
    + apply fb_iter. rewrite forall_in in IH. intros [r|c'] I; [apply fb_nil|exact (IH _ I)].
    + apply walk_one; [apply cluster_judged|apply cluster_validate_ok].
Qed.
Lemma flat_registers l cs : by_walk l (flat_map (fun x => match x with RCRegister _ => rc_walk x | RCCluster _ => [] end) cs) (iterM (register_validate_all l) (rc_registers cs)).
Proof.
  induction cs as [|[r|c] cs IH]; [apply fb_nil| |exact IH]. apply (fb_app _ _ (rc_walk (RCRegister r))); [|exact IH]. exact (walk_rc l (RCRegister r)).
Qed.
Lemma flat_clusters l cs : by_walk l (flat_map (fun x => match x with RCCluster _ => rc_walk x | RCRegister _ => [] end) cs) (iterM (cluster_validate_all l) (rc_clusters cs)).
Proof.
  induction cs as [|[r|c] cs IH]; [apply fb_nil|exact IH|]. apply (fb_app _ _ (rc_walk (RCCluster c))); [|exact IH]. exact (walk_rc l (RCCluster c)).
Qed.
Lemma walk_peripheral l p : by_walk l (peripheral_walk p) (peripheral_info_validate_all l p).
Proof.
  unfold peripheral_walk, peripheral_info_validate_all.
  assert (A : iterM_opt (iterM (ab_validate l)) (p_address_block p) = Ok tt) by (destruct (p_address_block p); [apply iterM_trivial|]; reflexivity).
  assert (I : iterM (it_validate l) (p_interrupt p) = Ok tt) by (now apply iterM_trivial).
  rewrite A, I. cbn [bind]. unfold p_children.
  replace (opt_default [] (p_registers p)) with (match p_registers p with Some rcs => rcs | None => [] end) by now destruct (p_registers p).
  apply fb_cons; [apply walk_props|]. apply fb_app; [apply flat_registers|]. apply fb_app; [apply flat_clusters|].
  apply walk_one; [apply peripheral_judged|apply peripheral_validate_ok].
Qed.
Lemma walk_device l d : by_walk l (device_walk d) (device_validate_all l d).
Proof.
  unfold device_walk, device_validate_all.
  assert (C : iterM_opt (cpu_validate l) (d_cpu d) = Ok tt) by now destruct (d_cpu d).
  rewrite C. cbn [bind]. apply fb_cons; [apply walk_props|]. apply fb_app.
  - apply fb_iter. intros p _. unfold peripheral_validate_all. rewrite ma_validate_all_ok. apply walk_peripheral.
  - apply walk_one; [apply device_judged|apply device_validate_ok].
Qed.

(** ** The walks have exactly the elements *)
Lemma in_values_walk es x : In x (values_walk es) <-> in_values es x.
Proof.
  unfold values_walk. rewrite in_app_iff, in_map_iff. cbn. split.
  - intros [(e & <- & I)|[<-|[]]]; now constructor.
  - intros [|e I]; eauto.
Qed.
Lemma in_field_walk f x : In x (field_walk f) <-> in_field f x.
Proof.
  unfold field_walk. rewrite in_app_iff, in_flat_map. cbn. split.
  - intros [(es & I & X)|[<-|[]]]; [|constructor]. apply in_values_walk in X. econstructor 2; eassumption.
  - intros [|es y I X]; [auto|]. left. exists es. split; [assumption|]. now apply in_values_walk.
Qed.
Lemma in_register_walk r x : In x (register_walk r) <-> in_register r x.
Proof.
  unfold register_walk. cbn [In]. rewrite in_app_iff, in_flat_map. cbn [In]. split.
  - intros [<-|[(f & I & X)|[<-|[]]]]; [constructor| |constructor]. apply in_field_walk in X. destruct (r_fields r) as [fs|] eqn:E; [|destruct I].
    econstructor 3; eassumption.
  - intros [| |fs f y E I X]; auto. right. left. rewrite E. exists f. split; [assumption|]. now apply in_field_walk.
Qed.
Lemma in_two (rcs : list register_cluster) x :
  In x (flat_map (fun x => match x with RCRegister _ => rc_walk x | RCCluster _ => [] end) rcs) \/
  In x (flat_map (fun x => match x with RCCluster _ => rc_walk x | RCRegister _ => [] end) rcs) <-> exists rc, In rc rcs /\ In x (rc_walk rc).
Proof.
  rewrite !in_flat_map. split.
  - intros [([r|c] & I & X)|([r|c] & I & X)]; try (now destruct X); eauto.
  - intros ([r|c] & I & X); [left|right]; [exists (RCRegister r)|exists (RCCluster c)]; auto.
Qed.
Lemma in_rc_walk rc x : In x (rc_walk rc) <-> in_rc rc x.
Proof.
  induction rc as [r|c IH] using rc_tree_ind; cbn [rc_walk].
  - rewrite in_register_walk. split; intros H; [now constructor|now inversion H; subst].
  - cbn [In]. rewrite !in_app_iff. cbn [In]. rewrite forall_in in IH. pose proof (in_two (c_children (info c)) x) as T. split.
    + intros [<-|[H|[H|[<-|[]]]]]; [constructor| | |constructor].
      * destruct (proj1 T (or_introl H)) as (rc & I & X). apply (IH _ I) in X. econstructor; eassumption.
      * destruct (proj1 T (or_intror H)) as (rc & I & X). apply (IH _ I) in X. econstructor; eassumption.
    + intros H. inversion H as [|c' E|c' E|c' rc y I X]; subst; [right; right; right; now left|now left|].
      right. apply (IH _ I) in X. assert (K : exists rc, In rc (c_children (info c)) /\ In x (rc_walk rc)) by eauto.
      apply T in K as [K|K]; auto.
Qed.
Lemma in_peripheral_walk p x : In x (peripheral_walk p) <-> in_peripheral p x.
Proof.
  unfold peripheral_walk. cbn [In]. rewrite !in_app_iff. cbn [In].
  pose proof (in_two (match p_registers p with Some rcs => rcs | None => [] end) x) as T. split.
  - intros [<-|[H|[H|[<-|[]]]]]; [constructor| | |constructor].
    + destruct (proj1 T (or_introl H)) as (rc & I & X). apply in_rc_walk in X. destruct (p_registers p) eqn:E; [|destruct I]. econstructor 3; eassumption.
    + destruct (proj1 T (or_intror H)) as (rc & I & X). apply in_rc_walk in X. destruct (p_registers p) eqn:E; [|destruct I]. econstructor 3; eassumption.
  - intros H. inversion H as [| |rcs rc y E I X]; subst; [auto|auto|]. apply in_rc_walk in X. rewrite E in T |- *. assert (K : exists rc, In rc rcs /\ In x (rc_walk rc)) by eauto.
    apply T in K as [K|K]; auto.
Qed.
Lemma in_device_walk d x : In x (device_walk d) <-> in_device d x.
Proof.
  unfold device_walk. cbn [In]. rewrite in_app_iff, in_flat_map. cbn [In]. split.
  - intros [<-|[(p & I & X)|[<-|[]]]]; [constructor| |constructor]. apply in_peripheral_walk in X. econstructor 3; eassumption.
  - intros [| |p y I X]; auto. right. left. exists p. split; [assumption|]. now apply in_peripheral_walk.
Qed.

(** ** As statements about errors *)
Lemma verdict l x : exists r, judged l x r /\ (r = Ok tt <-> element_ok l x).
Proof.
  destruct x as [p|e|e|f|r|c|p|d]; eexists; (split; [|]).
  1: apply props_judged. 1: apply rp_validate_ok.
  1: apply value_judged. 1: apply ev_validate_ok.
  1: apply values_judged. 1: apply evs_validate_ok.
  1: apply field_judged. 1: apply field_validate_ok.
  1: apply register_judged. 1: apply register_validate_ok.
  1: apply cluster_judged. 1: apply cluster_validate_ok.
  1: apply peripheral_judged. 1: apply peripheral_validate_ok.
  1: apply device_judged. 1: apply device_validate_ok.
Qed.
Lemma ok_not_blamed l x e : element_ok l x -> ~ blamed l x e.
Proof.
  intros O B. destruct (verdict l x) as (r & J & K). apply K in O. subst r. pose proof (judged_fun _ _ _ _ J B). discriminate.
Qed.
Lemma blame_exact l xs r e : by_walk l xs r -> (r = Err e <-> exists before x after, xs = before ++ x :: after /\ Forall (element_ok l) before /\ blamed l x e).
Proof.
  intros H. split.
  - intros ->. destruct H as [[X _]|(a & x & b & e' & E & F & W & X)]; [discriminate|]. injection X as <-. eauto 6.
  - intros (a & x & b & E & F & W). apply (fb_fun (element_ok l) (blamed l) xs); [| |exact H|].
    + apply ok_not_blamed.
    + intros y e1 e2 A B. pose proof (judged_fun _ _ _ _ A B) as X. now injection X.
    + right. exists a, x, b, e. auto.
Qed.
