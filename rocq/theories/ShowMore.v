(** Proof that the message tells the error. *)
From Verif Require Import BaseFacts Types Names Validate Builders Xml Parse ParseAt Expand Show NumProofs CauseProofs SpecFault ShowProofs.
Open Scope string_scope.

Definition plain_tags (e : err) : Prop := forall n t, e = EMissingPlaceholder n t -> In t ["peripheral"; "cluster"; "register"; "field"].
Definition same_error (e e' : err) : Prop := e = e' \/ exists n k k', e = EName n k /\ e' = EName n k'.

(** The message, with the subtraction done. *)
Definition text_of (e : err) : string :=
  match e with
  | EEvOutOfRange v start end_ => wrapped "EnumeratedValue"
      ("Value " ++ show_dec v ++ " out of range [" ++ show_dec start ++ " - " ++ show_dec (end_ - 1) ++ "]")
  | _ => match show Release e with Ok s => s | _ => "" end
  end.
Lemma show_text m e t : tellable e -> show m e = Ok t -> t = text_of e.
Proof.
  intros T H. destruct e; try (cbn [text_of]; destruct m; cbn [show] in *; congruence).
  cbn [show text_of] in *. unfold sub_w in H. rewrite (proj2 (N.leb_le 1 _) (T _ _ _ eq_refl)) in H. cbn [bind] in H. congruence.
Qed.

Lemma app_assoc_s (a b c : string) : (a ++ b) ++ c = a ++ b ++ c.
Proof. induction a as [|x a IH]; cbn; [|rewrite IH]; reflexivity. Qed.
Fixpoint last_char (s : string) : option ascii :=
  match s with EmptyString => None | String c EmptyString => Some c | String _ t => last_char t end.
Lemma last_char_app s t : t <> EmptyString -> last_char (s ++ t) = last_char t.
Proof.
  intros N. induction s as [|c s IH]; [reflexivity|]. cbn [append last_char]. destruct (s ++ t) eqn:E; [|exact IH].
  destruct s; [cbn in E; now destruct N|discriminate].
Qed.
Ltac peel H := cbv [text_of show wrapped show_kind show_kind_lower show_int_error show_option] in H; cbn [append] in H.
Ltac next H := repeat (injection H as H).
Ltac num H := apply dec_then in H as [? H]; [|reflexivity|reflexivity]; cbn [append] in H; subst; next H.
Ltac hexa H := apply hex_then in H as [? H]; [|reflexivity|reflexivity]; cbn [append] in H; subst; next H.

Lemma text_inj e e' : tellable e -> tellable e' -> plain_tags e -> plain_tags e' -> text_of e = text_of e' -> same_error e e'.
Proof.
  intros T T' P P' H.
  destruct e; try match goal with k : ekind |- _ => destruct k end;
  destruct e'; try match goal with k : ekind, H : text_of _ = text_of (ESelfDerived ?k _) |- _ => is_var k; destruct k end;
    try match goal with k : ekind, H : text_of _ = text_of (ENotFound ?k _) |- _ => is_var k; destruct k end;
    try (left; reflexivity);
    try solve [peel H; discriminate H].
  all: peel H.
  all: try solve [next H; first [apply app_cancel_r in H; subst; left; reflexivity|subst; left; reflexivity]].
  - next H. apply app_cancel_r in H. subst. right. eauto.
  - next H. destruct v as [v|], v0 as [v0|]; cbn [append] in H; try discriminate H; [|left; reflexivity].
    next H. rewrite !app_assoc_s in H. num H. left. reflexivity.
  - next H. num H. num H. num H. left. f_equal. specialize (T _ _ _ eq_refl). specialize (T' _ _ _ eq_refl). lia.
  - next H. num H. apply dec_inj in H. subst. left. reflexivity.
  - next H. num H. num H. apply dec_inj in H. subst. left. reflexivity.
  - next H. hexa H. num H. left. reflexivity.
  - next H. hexa H. discriminate H.
  - next H. hexa H. num H. left. reflexivity.
  - next H. hexa H. discriminate H.
  - next H. hexa H. hexa H. left. reflexivity.
  - exfalso. next H. apply (f_equal last_char) in H. rewrite !last_char_app in H by discriminate. discriminate H.
  - destruct k, k0; cbn [append] in H; try discriminate H; left; reflexivity.
  - exfalso. next H. apply (f_equal last_char) in H. rewrite !last_char_app in H by discriminate. discriminate H.
  - next H. num H. apply dec_inj in H. subst. left. reflexivity.
  - next H. specialize (P _ _ eq_refl). specialize (P' _ _ eq_refl).
    assert (B : forall t, In t ["peripheral"; "cluster"; "register"; "field"] -> sforall (fun a => negb (Ascii.eqb a "`")) t = true).
    { intros t I. cbn in I. destruct I as [<-|[<-|[<-|[<-|[]]]]]; reflexivity. }
    apply B in P, P'.
    assert (E : forall n t, n ++ "` in tag `" ++ t ++ "` is missing a %s placeholder"
      = ((n ++ "` in tag ") ++ String "`" t) ++ "` is missing a %s placeholder").
    { intros n t. rewrite !app_assoc_s. reflexivity. }
    change (name ++ "` in tag `" ++ tag ++ "` is missing a %s placeholder"
      = name0 ++ "` in tag `" ++ tag0 ++ "` is missing a %s placeholder") in H.
    rewrite !E in H. apply app_cancel_r, split_last in H as [H ->]; [|exact P|exact P'].
    apply app_cancel_r in H. subst. left. reflexivity.
Qed.

Lemma message_tells m m' e e' t : tellable e -> tellable e' -> plain_tags e -> plain_tags e' ->
  show m e = Ok t -> show m' e' = Ok t -> same_error e e'.
Proof.
  intros T T' P P' H H'. apply text_inj; auto. apply show_text in H, H'; auto. congruence.
Qed.

Lemma reported_plain e : reported e -> plain_tags e.
Proof.
  intros H n t ->. apply reported_fault in H as [E|(l & x & F)]; [discriminate|]. exact (proj1 F).
Qed.
Lemma reported_messages m m' e e' t : reported e -> reported e' -> show m e = Ok t -> show m' e' = Ok t -> same_error e e'.
Proof. intros R R'. apply message_tells; auto using reported_tells, reported_plain. Qed.
Lemma expand_messages m1 f1 d1 m2 f2 d2 m m' e e' t : expand m1 f1 d1 = Err e -> expand m2 f2 d2 = Err e' ->
  show m e = Ok t -> show m' e' = Ok t -> e = e'.
Proof.
  intros H H' S S'. apply expand_error in H as [(k & s & K) _], H' as [(k' & s' & K') _].
  destruct (message_tells m m' e e' t) as [E|(n & a & b & -> & _)]; auto.
  - intros a b c ->. destruct K; discriminate.
  - intros a b c ->. destruct K'; discriminate.
  - intros a b ->. destruct K; discriminate.
  - intros a b ->. destruct K'; discriminate.
  - destruct K; discriminate.
Qed.
Lemma range_message m cfg pos root v s t lines m' : parse_document m cfg pos root = Ok (inr (EEvOutOfRange v s t, lines)) ->
  exists w text, w < 64 /\ 2 ^ w <= v /\ show m' (EEvOutOfRange v s t) = Ok text /\
    text = "`EnumeratedValue error: Value " ++ to_string v ++ " out of range [0 - " ++ to_string (2 ^ w - 1) ++ "]".
Proof.
  intros H. assert (R : reported (EEvOutOfRange v s t)) by (repeat eexists; exact H).
  assert (T := reported_tells _ R). apply reported_fault in R as [E|(l & n & F)]; [discriminate|].
  destruct F as (_ & _ & -> & L & (w & _ & W & ->) & _). exists w. eexists. split; [exact W|]. split; [exact L|].
  split; [|reflexivity]. cbn [show]. unfold sub_w. rewrite (proj2 (N.leb_le 1 _) (T _ _ _ eq_refl)). reflexivity.
Qed.

Lemma parse_shown m cfg pos root e lines : parse_document m cfg pos root = Ok (inr (e, lines)) -> exists text, forall m', show m' e = Ok text.
Proof. intros H. apply show_ok, reported_tells. repeat eexists. exact H. Qed.
Lemma parse_messages m1 c1 p1 r1 e1 l1 m2 c2 p2 r2 e2 l2 m m' t :
  parse_document m1 c1 p1 r1 = Ok (inr (e1, l1)) -> parse_document m2 c2 p2 r2 = Ok (inr (e2, l2)) ->
  show m e1 = Ok t -> show m' e2 = Ok t -> same_error e1 e2.
Proof. intros H1 H2. apply reported_messages; repeat eexists; [exact H1|exact H2]. Qed.
Lemma shown_panics m e p : show m e = Panic p <-> m = Debug /\ p = Overflow /\ exists v s, e = EEvOutOfRange v s 0.
Proof. split; [apply show_panics|]. intros (-> & -> & v & s & ->). reflexivity. Qed.
Definition shown {A} (r : res A) : Prop := forall e, r = Err e -> exists text, forall m, show m e = Ok text.
Lemma tells_shown {A} (r : res A) : tells r -> shown r.
Proof. intros T e H. apply show_ok, T, H. Qed.
Ltac each T := repeat match goal with |- _ /\ _ => split end; intros; apply tells_shown; apply T.
Lemma validators_shown l :
  (forall x, shown (rp_validate l x)) /\ (forall x, shown (ev_validate l x)) /\
  (forall x, shown (evs_validate_all l x)) /\ (forall x, shown (field_validate_all l x)) /\
  (forall x, shown (register_validate_all l x)) /\ (forall x, shown (cluster_validate_all l x)) /\
  (forall x, shown (peripheral_validate_all l x)) /\ (forall x, shown (device_validate_all l x)).
Proof.
  repeat match goal with |- _ /\ _ => split end; intros x; apply tells_shown;
    auto using te_rp, te_ev, te_evs_all, te_field_all, te_register_all, te_peripheral_all, te_device_all.
  apply te_rc_all.
Qed.
Lemma builders_shown l :
  (forall b, shown (rp_build l b)) /\ (forall b, shown (ev_build l b)) /\ (forall b, shown (evs_build l b)) /\
  (forall b, shown (de_build l b)) /\ (forall b, shown (field_build l b)) /\
  (forall b, shown (register_build l b)) /\ (forall b, shown (cluster_build l b)) /\
  (forall b, shown (ab_build l b)) /\ (forall b, shown (it_build l b)) /\
  (forall b, shown (peripheral_build l b)) /\ (forall b, shown (cpu_build l b)) /\
  (forall b, shown (device_build l b)).
Proof. each builders_tell. Qed.
Lemma modifiers_shown l :
  (forall x b, shown (snd (rp_modify x b l))) /\ (forall x b, shown (snd (ev_modify x b l))) /\
  (forall x b, shown (snd (evs_modify x b l))) /\ (forall x b, shown (snd (de_modify x b l))) /\
  (forall x b, shown (snd (field_modify x b l))) /\ (forall x b, shown (snd (register_modify x b l))) /\
  (forall x b, shown (snd (cluster_modify x b l))) /\ (forall x b, shown (snd (ab_modify x b l))) /\
  (forall x b, shown (snd (it_modify x b l))) /\ (forall x b, shown (snd (peripheral_modify x b l))) /\
  (forall x b, shown (snd (cpu_modify x b l))) /\ (forall x b, shown (snd (device_modify x b l))).
Proof. each modifiers_tell. Qed.
