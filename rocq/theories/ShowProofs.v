(** Proofs about the messages of errors. *)
From Verif Require Import BaseFacts Types Names Validate Builders Xml Parse ParseAt Expand Show NumProofs ValidateProofs TreeFacts
  SpecNum SpecArray SpecText SpecXml SpecValidate SpecParse SpecFault FaultProofs ReportProofs CauseProofs.
Open Scope string_scope.

(** ** Every message can be made *)
Definition tellable (e : err) : Prop := forall v s t, e = EEvOutOfRange v s t -> 1 <= t.
Lemma show_ok e : tellable e -> exists text, forall m, show m e = Ok text.
Proof.
  intros T. destruct e; try (eexists; intros ?; reflexivity).
  specialize (T _ _ _ eq_refl). eexists. intros m. cbn [show]. unfold sub_w. rewrite (proj2 (N.leb_le 1 end_) T). reflexivity.
Qed.
Lemma show_panics e m p : show m e = Panic p -> m = Debug /\ p = Overflow /\ exists v s, e = EEvOutOfRange v s 0.
Proof.
  destruct e; try discriminate. cbn [show]. unfold sub_w. destruct (N.leb_spec 1 end_) as [L|L]; [discriminate|].
  destruct m; [|discriminate]. cbn. intros E. injection E as <-. split; [reflexivity|]. split; [reflexivity|].
  exists v, start. f_equal. lia.
Qed.

Definition tells {A} (r : res A) : Prop := forall e, r = Err e -> tellable e.
Lemma te_ok {A} (a : A) : tells (Ok a). Proof. discriminate. Qed.
Lemma te_err {A} e : tellable e -> @tells A (Err e). Proof. intros T e' E. injection E as <-. exact T. Qed.
Lemma te_bind {A B} (r : res A) (f : A -> res B) : tells r -> (forall a, tells (f a)) -> tells (bind r f).
Proof. intros H K e E. apply bind_err in E as [E|(a & _ & E)]; [now apply H|now apply (K a)]. Qed.
Lemma te_check b e : tellable e -> tells (check b e).
Proof. intros T. destruct b; cbn; [apply te_ok|now apply te_err]. Qed.
Lemma te_ok_or {A} (o : option A) e : tellable e -> tells (ok_or o e).
Proof. intros T. destruct o; cbn; [apply te_ok|now apply te_err]. Qed.
Lemma te_when b r : tells r -> tells (when b r). Proof. destruct b; cbn; [auto|intros; apply te_ok]. Qed.
Lemma te_iterM {A} (f : A -> res unit) l : (forall a, In a l -> tells (f a)) -> tells (iterM f l).
Proof. intros H e E. apply iterM_err in E as (a & I & E). now apply (H a). Qed.
Lemma te_iterM_opt {A} (f : A -> res unit) o : (forall a, tells (f a)) -> tells (iterM_opt f o).
Proof. intros H e E. apply iterM_opt_err in E as (a & I & E). now apply (H a). Qed.
Ltac tl :=
  repeat match goal with
    | |- tellable _ => let H := fresh in intros ? ? ? H; discriminate H
    | |- tells (Ok _) => apply te_ok
    | |- tells (Err _) => apply te_err
    | |- tells (check _ _) => apply te_check
    | |- tells (ok_or _ _) => apply te_ok_or
    | |- tells (when _ _) => apply te_when
    | |- tells (bind _ _) => apply te_bind; [|intros ?]
    | |- tells (iterM _ _) => apply te_iterM; intros
    | |- tells (iterM_opt _ _) => apply te_iterM_opt; intros
    | |- tells (match ?x with _ => _ end) => destruct x
    end.
Lemma te_name s k : tells (check_name s k). Proof. unfold check_name. tl. Qed.
Lemma te_dimable s k : tells (check_dimable_name s k). Proof. unfold check_dimable_name. tl. Qed.
Lemma te_derived s k : tells (check_derived_name s k). Proof. unfold check_derived_name. tl; apply te_dimable. Qed.
Create HintDb te.
#[local] Hint Resolve te_name te_dimable te_derived : te.
Ltac te := tl; auto with te.
Lemma te_rp l p : tells (rp_validate l p). Proof. unfold rp_validate, check_reset_value. te. Qed.
Lemma te_ev l e : tells (ev_validate l e). Proof. unfold ev_validate. te. Qed.
Lemma te_evs l e : tells (evs_validate l e). Proof. unfold evs_validate. te. Qed.
#[local] Hint Resolve te_rp te_ev te_evs : te.
Lemma te_evs_all l e : tells (evs_validate_all l e). Proof. unfold evs_validate_all. te. Qed.
Lemma te_field l f : tells (field_validate l f).
Proof.
  unfold field_validate, wc_check_range. cbv zeta.
  assert (R : forall w es, tells (evs_check_range 0 (2 ^ w) es)).
  { intros w es. unfold evs_check_range. apply te_iterM. intros e _. unfold ev_check_range. destruct (ev_value e); [|apply te_ok].
    apply te_check. intros a b c E. injection E as _ _ <-. assert (2 ^ w <> 0) by (apply N.pow_nonzero; discriminate). lia. }
  te.
Qed.
#[local] Hint Resolve te_field te_evs_all : te.
Lemma te_field_all l f : tells (field_validate_all l f).
Proof. unfold field_validate_all. rewrite ma_validate_all_ok. unfold field_info_validate_all. te. Qed.
Lemma te_register l r : tells (register_validate l r). Proof. unfold register_validate. te. Qed.
#[local] Hint Resolve te_field_all te_register : te.
Lemma te_register_all l r : tells (register_validate_all l r).
Proof. unfold register_validate_all. rewrite ma_validate_all_ok. unfold register_info_validate_all. te. Qed.
Lemma te_cluster l c : tells (cluster_validate l c). Proof. unfold cluster_validate. te. Qed.
Lemma te_rc_all l rc : tells (rc_validate_all l rc).
Proof.
  induction rc as [r|c IH] using rc_tree_ind; cbn [rc_validate_all]; [apply te_register_all|].
  rewrite Forall_forall in IH.
  apply te_bind; [destruct c; apply te_ok|intros _]. apply te_bind; [apply te_rp|intros _].
  apply te_bind; [apply te_iterM; intros [r|c'] H; [apply (IH _ H)|apply te_ok]|intros _].
  apply te_bind; [apply te_iterM; intros [r|c'] H; [apply te_ok|apply (IH _ H)]|intros _].
  apply te_cluster.
Qed.
Lemma te_peripheral l p : tells (peripheral_validate l p). Proof. unfold peripheral_validate. te. Qed.
#[local] Hint Resolve te_register_all te_cluster te_peripheral te_rc_all : te.
Lemma te_peripheral_all l p : tells (peripheral_validate_all l p).
Proof.
  unfold peripheral_validate_all. rewrite ma_validate_all_ok. unfold peripheral_info_validate_all, ab_validate, it_validate.
  te; apply te_rc_all.
Qed.
Lemma te_device l d : tells (device_validate l d). Proof. unfold device_validate. te. Qed.
#[local] Hint Resolve te_peripheral_all te_device : te.
Lemma te_device_all l d : tells (device_validate_all l d).
Proof. unfold device_validate_all, cpu_validate. te. Qed.

Lemma te_validated {A} (v : A -> res unit) x : tells (v x) -> tells (validated v x).
Proof. intros H e E. apply validated_err in E. now apply H. Qed.
Lemma te_required {A} s (o : option A) : tells (required s o). Proof. unfold required. tl. Qed.
Ltac built := repeat (apply te_bind; [first [apply te_required|apply te_validated; apply te_rp]|intros ?]); apply te_validated; auto with te.

Definition built_tells : Prop :=
  (forall l b, tells (rp_build l b)) /\ (forall l b, tells (ev_build l b)) /\ (forall l b, tells (evs_build l b)) /\
  (forall l b, tells (de_build l b)) /\ (forall l b, tells (field_build l b)) /\ (forall l b, tells (register_build l b)) /\
  (forall l b, tells (cluster_build l b)) /\ (forall l b, tells (ab_build l b)) /\ (forall l b, tells (it_build l b)) /\
  (forall l b, tells (peripheral_build l b)) /\ (forall l b, tells (cpu_build l b)) /\ (forall l b, tells (device_build l b)).
Lemma builders_tell : built_tells.
Proof.
  unfold built_tells, rp_build, ev_build, evs_build, de_build, field_build, register_build, cluster_build, ab_build, it_build,
    peripheral_build, cpu_build, device_build, de_validate, ab_validate, it_validate, cpu_validate.
  split; [intros; built|]. split; [intros; built|]. split; [intros; built|]. split; [intros; built; apply te_ok|].
  split; [intros; built|]. split; [intros; built|]. split; [intros; built|].
  split; [intros; built; apply te_ok|]. split; [intros; built; apply te_ok|]. split; [intros; built|].
  split; [intros; built; apply te_ok|]. intros; built.
Qed.

Definition modified_tells : Prop :=
  (forall x b l, tells (snd (rp_modify x b l))) /\ (forall x b l, tells (snd (ev_modify x b l))) /\
  (forall x b l, tells (snd (evs_modify x b l))) /\ (forall x b l, tells (snd (de_modify x b l))) /\
  (forall x b l, tells (snd (field_modify x b l))) /\ (forall x b l, tells (snd (register_modify x b l))) /\
  (forall x b l, tells (snd (cluster_modify x b l))) /\ (forall x b l, tells (snd (ab_modify x b l))) /\
  (forall x b l, tells (snd (it_modify x b l))) /\ (forall x b l, tells (snd (peripheral_modify x b l))) /\
  (forall x b l, tells (snd (cpu_modify x b l))) /\ (forall x b l, tells (snd (device_modify x b l))).
Lemma modifiers_tell : modified_tells.
Proof.
  assert (R : forall x b l, tells (snd (rp_modify x b l))) by (intros; apply te_rp).
  split; [exact R|].
  unfold ev_modify, evs_modify, de_modify, field_modify, register_modify, cluster_modify, ab_modify,
    it_modify, peripheral_modify, cpu_modify, device_modify, de_validate, ab_validate, it_validate, cpu_validate. cbv zeta.
  repeat match goal with |- _ /\ _ => split end; intros; try match goal with |- tells (snd (if ?c then _ else _)) => destruct c end;
    try match goal with
      | |- context [rp_modify ?a ?b ?l] =>
          let T := fresh "T" in pose proof (R a b l) as T; destruct (rp_modify a b l) as [? [| |]]; cbn [snd] in *;
          [|exact T|exact T]
      end; cbn [snd]; te.
Qed.

Lemma expand_tells m fuel d e : expand m fuel d = Err e -> tellable e.
Proof. intros H. apply expand_error in H as [(k & s & [-> | ->]) _]; intros a b c E; discriminate. Qed.
Lemma fault_tells l e n : fault l e n -> tellable e.
Proof.
  intros F a b c ->. destruct F as (_ & _ & _ & _ & (w & _ & _ & ->) & _).
  assert (2 ^ w <> 0) by (apply N.pow_nonzero; discriminate). lia.
Qed.
Definition reported (e : err) : Prop := exists m cfg pos root lines, parse_document m cfg pos root = Ok (inr (e, lines)).
Lemma reported_fault e : reported e -> e = EMissingTag "device" \/ exists l n, fault l e n.
Proof.
  intros (m & cfg & pos & root & lines & H). apply report_error in H as [(_ & -> & _)|(i & dev & s & ns & n & line & rest & _ & _ & _ & F & _)]; eauto.
Qed.
Lemma reported_tells e : reported e -> tellable e.
Proof. intros H. apply reported_fault in H as [->|(l & n & F)]; [intros a b c E; discriminate|now apply fault_tells in F]. Qed.

(** ** The message tells the error *)
Lemma app_cancel_r (a b c : string) : a ++ c = b ++ c -> a = b.
Proof.
  intros H. apply (f_equal list_ascii_of_string) in H.
  assert (L : forall a b, list_ascii_of_string (a ++ b) = (list_ascii_of_string a ++ list_ascii_of_string b)%list).
  { induction a0 as [|x a0 IH]; intros; cbn; [|rewrite IH]; reflexivity. }
  rewrite !L in H. apply app_inv_tail in H.
  apply (f_equal string_of_list_ascii) in H. now rewrite !string_of_list_ascii_of_string in H.
Qed.
Lemma split_at (p : ascii -> bool) s s' c c' x y : sforall p s = true -> sforall p s' = true -> p c = false -> p c' = false ->
  s ++ String c x = s' ++ String c' y -> s = s' /\ String c x = String c' y.
Proof.
  revert s'; induction s as [|a s IH]; intros [|a' s'] S S' C C' E; cbn in *.
  - auto.
  - injection E as -> _. rewrite C in S'. discriminate.
  - injection E as -> _. rewrite C' in S. discriminate.
  - injection E as -> E. apply andb_prop in S as [_ S]. apply andb_prop in S' as [_ S'].
    destruct (IH s' S S' C C' E) as [-> Q]. auto.
Qed.
Lemma split_last c s s' t t' : sforall (fun a => negb (Ascii.eqb a c)) t = true -> sforall (fun a => negb (Ascii.eqb a c)) t' = true ->
  s ++ String c t = s' ++ String c t' -> s = s' /\ t = t'.
Proof.
  intros T T'. assert (K : forall s t, sforall (fun a => negb (Ascii.eqb a c)) (s ++ String c t) = true -> False).
  { clear. intros s t H. rewrite sforall_app in H. cbn in H. rewrite Ascii.eqb_refl in H. rewrite andb_false_r in H. discriminate. }
  revert s'; induction s as [|a s IH]; intros [|a' s'] E; cbn in E.
  - injection E as ->. auto.
  - injection E as -> ->. destruct (K _ _ T).
  - injection E as -> <-. destruct (K _ _ T').
  - injection E as -> E. destruct (IH s' E) as [-> ->]. auto.
Qed.
Lemma dec_inj a b : show_dec a = show_dec b -> a = b.
Proof. apply to_string_inj. Qed.
Lemma hex_inj a b : show_hex a = show_hex b -> a = b.
Proof.
  unfold show_hex. intros H. assert (A := horner_fmt false 16 a). assert (B := horner_fmt false 16 b).
  rewrite H in A. rewrite A in B by lia. assert (Some a = Some b) by (apply B; lia). congruence.
Qed.
Lemma dec_then a b c x c' y : is_digit c = false -> is_digit c' = false ->
  show_dec a ++ String c x = show_dec b ++ String c' y -> a = b /\ String c x = String c' y.
Proof.
  intros C C' E. apply (split_at is_digit) in E as [E Q]; auto using to_string_digits. apply dec_inj in E. auto.
Qed.
Definition is_hex (c : ascii) : bool := match digit_val 16 c with Some _ => true | None => false end.
Lemma hex_digits a : sforall is_hex (show_hex a) = true.
Proof.
  assert (K : forall s acc v, horner 16 acc s = Some v -> sforall is_hex s = true).
  { induction s as [|c s IH]; intros acc v H; [reflexivity|]. cbn [horner] in H. cbn [sforall]. unfold is_hex at 1.
    destruct (digit_val 16 c); [|discriminate]. cbn. eapply IH. exact H. }
  eapply K. apply horner_fmt. lia.
Qed.
Lemma hex_then a b c x c' y : is_hex c = false -> is_hex c' = false ->
  show_hex a ++ String c x = show_hex b ++ String c' y -> a = b /\ String c x = String c' y.
Proof.
  intros C C' E. apply (split_at is_hex) in E as [E Q]; auto using hex_digits. apply hex_inj in E. auto.
Qed.
