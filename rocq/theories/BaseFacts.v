(** Facts about the base definitions. *)
From Coq Require Export Lia ZifyBool ZifyNat ZifyN.
From Verif Require Export Base.
Ltac Zify.zify_post_hook ::= Z.div_mod_to_equations.

#[global] Arguments N.add : simpl never.
#[global] Arguments N.sub : simpl never.
#[global] Arguments N.mul : simpl never.
#[global] Arguments N.div : simpl never.
#[global] Arguments N.modulo : simpl never.
#[global] Arguments N.pow : simpl never.
#[global] Arguments N.ltb : simpl never.
#[global] Arguments N.leb : simpl never.
#[global] Arguments N.eqb : simpl never.
#[global] Arguments N.shiftl : simpl never.
#[global] Arguments N.shiftr : simpl never.

(** ** Outcomes *)

Lemma bind_ok {A B} (m : res A) (f : A -> res B) b :
  bind m f = Ok b -> exists a, m = Ok a /\ f a = Ok b.
Proof. destruct m; cbn; intros H; try discriminate. eauto. Qed.

Lemma bind_assoc {A B C} (m : res A) (f : A -> res B) (g : B -> res C) :
  bind (bind m f) g = bind m (fun a => bind (f a) g).
Proof. destruct m; reflexivity. Qed.

Lemma bind_ret {A} (m : res A) : bind m Ok = m.
Proof. destruct m; reflexivity. Qed.

Lemma bind_ext {A B} (m : res A) (f g : A -> res B) :
  (forall a, m = Ok a -> f a = g a) -> bind m f = bind m g.
Proof. destruct m; cbn; intros H; auto. Qed.

Lemma check_ok b e u : check b e = Ok u <-> b = true.
Proof. destruct b, u; cbn; split; congruence. Qed.

Lemma check_err b e e' : check b e = Err e' <-> b = false /\ e' = e.
Proof. destruct b; cbn; split; intuition congruence. Qed.

Lemma mapM_ok {A B} (f : A -> res B) l l' :
  mapM f l = Ok l' <-> Forall2 (fun a b => f a = Ok b) l l'.
Proof.
  revert l'; induction l as [|a l IH]; intros l'; cbn [mapM].
  - split; intros H; [injection H as <-; constructor | inversion H; reflexivity].
  - split; intros H.
    + apply bind_ok in H as (b & Hb & H). apply bind_ok in H as (bs & Hbs & H).
      injection H as <-. constructor; [assumption|]. now apply IH.
    + inversion H as [|? b ? bs Hb Hbs]; subst. rewrite Hb; cbn [bind].
      apply IH in Hbs; rewrite Hbs; reflexivity.
Qed.

Lemma mapM_ext {A B} (f g : A -> res B) l :
  (forall a, In a l -> f a = g a) -> mapM f l = mapM g l.
Proof.
  induction l as [|a l IH]; cbn [mapM]; intros H; [reflexivity|].
  rewrite (H a) by (left; reflexivity). rewrite IH; [reflexivity|].
  intros; apply H; right; assumption.
Qed.

Lemma mapM_pure {A B} (f : A -> B) l : mapM (fun a => Ok (f a)) l = Ok (map f l).
Proof. induction l as [|a l IH]; cbn [mapM map]; [|rewrite IH]; reflexivity. Qed.

Lemma mapM_all_ok {A B} (f : A -> res B) (g : A -> B) l :
  (forall a, In a l -> f a = Ok (g a)) -> mapM f l = Ok (map g l).
Proof. intros H. rewrite (mapM_ext f (fun a => Ok (g a))) by exact H. apply mapM_pure. Qed.

Lemma mapM_length {A B} (f : A -> res B) l l' : mapM f l = Ok l' -> List.length l' = List.length l.
Proof. intros H; apply mapM_ok in H. induction H; cbn; congruence. Qed.

Lemma mapM_app {A B} (f : A -> res B) l1 l2 :
  mapM f (l1 ++ l2) = bind (mapM f l1) (fun a => bind (mapM f l2) (fun b => Ok (a ++ b))).
Proof.
  induction l1 as [|a l1 IH]; cbn [mapM app bind].
  - now destruct (mapM f l2).
  - destruct (f a); cbn [bind]; [|reflexivity..]. rewrite IH.
    destruct (mapM f l1); cbn [bind]; [|reflexivity..].
    destruct (mapM f l2); reflexivity.
Qed.

Lemma mapM_map {A B C} (f : B -> res C) (g : A -> B) l :
  mapM f (map g l) = mapM (fun a => f (g a)) l.
Proof. induction l as [|a l IH]; cbn [mapM map]; [|rewrite IH]; reflexivity. Qed.

Lemma iterM_ok {A} (f : A -> res unit) l u :
  iterM f l = Ok u <-> Forall (fun a => f a = Ok tt) l.
Proof.
  destruct u. induction l as [|a l IH]; cbn [iterM].
  - split; constructor.
  - split; intros H.
    + apply bind_ok in H as ([] & Ha & H). constructor; [assumption|]. now apply IH.
    + inversion H as [|? ? Ha Hl]; subst. rewrite Ha; cbn [bind]. now apply IH.
Qed.

Lemma iterM_ext {A} (f g : A -> res unit) l :
  (forall a, In a l -> f a = g a) -> iterM f l = iterM g l.
Proof.
  induction l as [|a l IH]; cbn [iterM]; intros H; [reflexivity|].
  rewrite (H a) by (left; reflexivity). rewrite IH; [reflexivity|].
  intros; apply H; right; assumption.
Qed.

Lemma concatM_ok {A B} (f : A -> res (list B)) l l' :
  concatM f l = Ok l' <-> exists ls, Forall2 (fun a b => f a = Ok b) l ls /\ l' = List.concat ls.
Proof.
  revert l'; induction l as [|a l IH]; intros l'; cbn [concatM].
  - split; intros H.
    + injection H as <-. exists []; split; [constructor | reflexivity].
    + destruct H as (ls & H & ->). inversion H; reflexivity.
  - split; intros H.
    + apply bind_ok in H as (b & Hb & H). apply bind_ok in H as (bs & Hbs & H).
      injection H as <-. apply IH in Hbs as (ls & Hls & ->).
      exists (b :: ls); split; [constructor; assumption | reflexivity].
    + destruct H as (ls & H & ->). inversion H as [|? b ? bs Hb Hbs]; subst.
      rewrite Hb; cbn [bind]. rewrite (proj2 (IH (List.concat bs))) by eauto. reflexivity.
Qed.

Lemma concatM_ext {A B} (f g : A -> res (list B)) l :
  (forall a, In a l -> f a = g a) -> concatM f l = concatM g l.
Proof.
  induction l as [|a l IH]; cbn [concatM]; intros H; [reflexivity|].
  rewrite (H a) by (left; reflexivity). rewrite IH; [reflexivity|].
  intros; apply H; right; assumption.
Qed.

Lemma concatM_app {A B} (f : A -> res (list B)) l1 l2 :
  concatM f (l1 ++ l2) = bind (concatM f l1) (fun a => bind (concatM f l2) (fun b => Ok (a ++ b))).
Proof.
  induction l1 as [|a l1 IH]; cbn [concatM app bind].
  - now destruct (concatM f l2).
  - destruct (f a); cbn [bind]; [|reflexivity..]. rewrite IH.
    destruct (concatM f l1); cbn [bind]; [|reflexivity..].
    destruct (concatM f l2); cbn [bind]; [now rewrite app_assoc|reflexivity..].
Qed.

(** ** Machine arithmetic *)

Lemma add_w_ok bound m a b : a + b < bound -> add_w bound m a b = Ok (a + b).
Proof. unfold add_w; intros H. now rewrite (proj2 (N.ltb_lt _ _) H). Qed.
Lemma mul_w_ok bound m a b : a * b < bound -> mul_w bound m a b = Ok (a * b).
Proof. unfold mul_w; intros H. now rewrite (proj2 (N.ltb_lt _ _) H). Qed.
Lemma sub_w_ok bound m a b : b <= a -> sub_w bound m a b = Ok (a - b).
Proof. unfold sub_w; intros H. now rewrite (proj2 (N.leb_le _ _) H). Qed.
Lemma add_w_debug bound a b r : add_w bound Debug a b = Ok r <-> a + b < bound /\ r = a + b.
Proof. unfold add_w. destruct (N.ltb_spec (a + b) bound); split; intuition (congruence || lia). Qed.
Lemma mul_w_debug bound a b r : mul_w bound Debug a b = Ok r <-> a * b < bound /\ r = a * b.
Proof. unfold mul_w. destruct (N.ltb_spec (a * b) bound); split; intuition (congruence || lia). Qed.
Lemma sub_w_debug bound a b r : sub_w bound Debug a b = Ok r <-> b <= a /\ r = a - b.
Proof. unfold sub_w. destruct (N.leb_spec b a); split; intuition (congruence || lia). Qed.

(** ** Lists *)

Lemma upto_spec n : upto n = map N.of_nat (seq 0 (N.to_nat n)).
Proof. reflexivity. Qed.
Lemma upto_length n : List.length (upto n) = N.to_nat n.
Proof. unfold upto. now rewrite map_length, seq_length. Qed.
Lemma in_upto n i : In i (upto n) <-> i < n.
Proof.
  unfold upto. rewrite in_map_iff. split.
  - intros (k & <- & H). apply in_seq in H. lia.
  - intros H. exists (N.to_nat i). rewrite in_seq. lia.
Qed.
Lemma upto_nth n k : (k < N.to_nat n)%nat -> nth_error (upto n) k = Some (N.of_nat k).
Proof.
  intros H. unfold upto. rewrite nth_error_map.
  rewrite (nth_error_nth' _ 0%nat) by now rewrite seq_length.
  rewrite seq_nth by assumption. reflexivity.
Qed.
Lemma upto_succ n : upto (N.succ n) = upto n ++ [n].
Proof.
  unfold upto. rewrite N2Nat.inj_succ. rewrite seq_S, map_app. cbn. now rewrite N2Nat.id.
Qed.

Lemma find_first_some {A} (f : A -> bool) l a :
  find_first f l = Some a <->
  exists l1 l2, l = l1 ++ a :: l2 /\ f a = true /\ Forall (fun x => f x = false) l1.
Proof.
  induction l as [|x l IH]; cbn.
  - split; [discriminate|]. intros (l1 & l2 & H & _). destruct l1; discriminate.
  - destruct (f x) eqn:Hx.
    + split.
      * intros H; injection H as ->. exists [], l; auto.
      * intros (l1 & l2 & H & Ha & Hl). destruct l1 as [|y l1]; cbn in H.
        -- congruence.
        -- injection H as -> ->. inversion Hl; congruence.
    + rewrite IH. split.
      * intros (l1 & l2 & -> & Ha & Hl). exists (x :: l1), l2; auto.
      * intros (l1 & l2 & H & Ha & Hl). destruct l1 as [|y l1]; cbn in H.
        -- injection H as -> ->. congruence.
        -- injection H as -> ->. inversion Hl; subst. eauto.
Qed.
Lemma find_first_none {A} (f : A -> bool) l :
  find_first f l = None <-> Forall (fun x => f x = false) l.
Proof.
  induction l as [|x l IH]; cbn.
  - split; auto.
  - destruct (f x) eqn:Hx.
    + split; [discriminate|]. intros H; inversion H; congruence.
    + rewrite IH. split; [auto|]. intros H; inversion H; auto.
Qed.

(** ** Strings *)

Lemma seqb_eq a b : seqb a b = true <-> a = b.
Proof. apply String.eqb_eq. Qed.
Lemma seqb_neq a b : seqb a b = false <-> a <> b.
Proof. apply String.eqb_neq. Qed.
Lemma seqb_refl a : seqb a a = true.
Proof. apply String.eqb_refl. Qed.

Lemma sapp_assoc (a b c : string) : ((a ++ b) ++ c = a ++ (b ++ c))%string.
Proof. induction a as [|x a IH]; cbn; [|rewrite IH]; reflexivity. Qed.
Lemma sapp_nil (a : string) : (a ++ "" = a)%string.
Proof. induction a as [|x a IH]; cbn; [|rewrite IH]; reflexivity. Qed.
Lemma sapp_length (a b : string) : String.length (a ++ b) = (String.length a + String.length b)%nat.
Proof. induction a as [|x a IH]; cbn; [|rewrite IH]; reflexivity. Qed.
Lemma sapp_cancel_l (a b c : string) : (a ++ b = a ++ c)%string -> b = c.
Proof. induction a as [|x a IH]; cbn; [auto|]. intros H; injection H; auto. Qed.

Lemma strip_prefix_spec p s r : strip_prefix p s = Some r <-> s = (p ++ r)%string.
Proof.
  revert s; induction p as [|a p IH]; intros s; cbn.
  - split; congruence.
  - destruct s as [|b s]; [split; discriminate|].
    destruct (Ascii.eqb_spec a b) as [->|Hab].
    + rewrite IH. split; [intros ->; reflexivity|]. intros H; now injection H.
    + split; [discriminate|]. intros H; injection H; congruence.
Qed.
Lemma starts_with_spec p s : starts_with p s = true <-> exists r, s = (p ++ r)%string.
Proof.
  unfold starts_with. destruct (strip_prefix p s) as [r|] eqn:H; cbn.
  - apply strip_prefix_spec in H. split; eauto.
  - split; [discriminate|]. intros (r & Hr). apply strip_prefix_spec in Hr. congruence.
Qed.
Lemma contains_spec p s : contains p s = true <-> exists a b, s = (a ++ p ++ b)%string.
Proof.
  induction s as [|c s IH]; cbn [contains].
  - rewrite orb_false_r, starts_with_spec. split.
    + intros (r & Hr). exists "", r; exact Hr.
    + intros (a & b & H). destruct a; [eauto | discriminate].
  - rewrite orb_true_iff, starts_with_spec, IH. split.
    + intros [(r & Hr)|(a & b & ->)]; [exists "", r; exact Hr | exists (String c a), b; reflexivity].
    + intros (a & b & H). destruct a as [|x a]; [left; eauto|].
      injection H as -> ->. right; eauto.
Qed.
Lemma contains_char_spec c s :
  contains_char c s = true <-> In c (list_ascii_of_string s).
Proof.
  induction s as [|a s IH]; cbn; [split; [discriminate|tauto]|].
  rewrite orb_true_iff, IH, Ascii.eqb_eq. tauto.
Qed.

(** All characters of a string. *)
Fixpoint sforall (f : ascii -> bool) (s : string) : bool :=
  match s with EmptyString => true | String c s' => f c && sforall f s' end.
Lemma sforall_app f a b : sforall f (a ++ b) = sforall f a && sforall f b.
Proof. induction a as [|c a IH]; cbn; [|rewrite IH, andb_assoc]; reflexivity. Qed.
Lemma sforall_impl (f g : ascii -> bool) s :
  (forall c, f c = true -> g c = true) -> sforall f s = true -> sforall g s = true.
Proof.
  intros H. induction s as [|c s IH]; cbn; [auto|]. rewrite !andb_true_iff. intuition.
Qed.

(** The character at the front decides. *)
Lemma starts_with_cons p c s : starts_with (String p "") (String c s) = Ascii.eqb p c.
Proof. unfold starts_with; cbn. now destruct (Ascii.eqb p c). Qed.

Fixpoint smap (f : ascii -> ascii) (s : string) : string :=
  match s with EmptyString => EmptyString | String c s' => String (f c) (smap f s') end.
Lemma replace_char p b s :
  replace (String p "") (String b "") s = smap (fun c => if Ascii.eqb p c then b else c) s.
Proof.
  unfold replace. induction s as [|c s IH]; [reflexivity|].
  cbn [replace_go smap]. rewrite starts_with_cons. destruct (Ascii.eqb p c).
  - cbn [String.length Nat.pred append]. now rewrite IH.
  - now rewrite IH.
Qed.

Ltac conjs := repeat match goal with |- _ /\ _ => apply conj end.

Lemma Forall2_in_l {A B} (R : A -> B -> Prop) l l' : Forall2 R l l' ->
  forall a, In a l -> exists b, In b l' /\ R a b.
Proof.
  induction 1 as [|x y l l' H F IH]; intros a [].
  - subst. exists y. cbn. auto.
  - destruct (IH a) as (b & Hb & K); auto. exists b. cbn. auto.
Qed.
Lemma Forall2_in_r {A B} (R : A -> B -> Prop) l l' : Forall2 R l l' ->
  forall b, In b l' -> exists a, In a l /\ R a b.
Proof.
  induction 1 as [|x y l l' H F IH]; intros b [].
  - subst. exists x. cbn. auto.
  - destruct (IH b) as (a & Ha & K); auto. exists a. cbn. auto.
Qed.
