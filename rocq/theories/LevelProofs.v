(** Reading a document at another level of validation. *)
From Verif Require Import Base BaseFacts TreeFacts Types Xml SpecNum SpecArray SpecText SpecXml SpecValidate SpecParse SpecShape SpecFault SpecRead ValidateProofs XmlFacts SpecLevel.

Lemma each_mono {A} (P : xml -> Prop) (R R' : xml -> A -> Prop) l r : each P R l r -> (forall c x, In x r -> R c x -> R' c x) -> each P R' l r.
Proof.
  induction 1 as [|c l r N E IH|c x l r N X E IH]; intros H; [constructor|apply each_skip; auto|apply each_take; auto].
  - apply H; [now left|exact X].
  - apply IH. intros c' x' I. apply H. now right.
Qed.
Lemma each_in {A} (P : xml -> Prop) (R : xml -> A -> Prop) l r x : each P R l r -> In x r -> exists c, R c x.
Proof. induction 1 as [|c l r N E IH|c y l r N X E IH]; intros I; [destruct I|auto|destruct I as [<-|I]; eauto]. Qed.
Lemma the_mono {A} (R R' : xml -> A -> Prop) k n x : (forall c, R c x -> R' c x) -> the R k n x -> the R' k n x.
Proof. intros H (c & F & K). exists c. auto. Qed.
Lemma member_mono {A} (R R' : xml -> A -> Prop) k n o : (forall c x, o = Some x -> R c x -> R' c x) -> member R k n o -> member R' k n o.
Proof. destruct o; cbn; [|auto]. intros H. apply the_mono. intros c. now apply H. Qed.

Lemma first_unique q n c c' : first_child q n c -> first_child q n c' -> c = c'.
Proof. intros H K. apply get_child_first in H, K. congruence. Qed.
Lemma no_first q n c : no_child q n -> first_child q n c -> False.
Proof.
  intros N (t & a & pre & post & -> & K & _). specialize (N t a _ eq_refl). rewrite Forall_forall in N.
  apply (N c); [apply in_or_app; right; now left|exact K].
Qed.

Section Level.
  Variables (m : mode) (g : bool) (k l : level).

  Definition fine_index (d : dim_element) : Prop := forall x v, de_array_index d = Some x -> In v (dai_values x) -> value_ok l v.

  Lemma props_level n p : props_ok l p -> props_read k n p -> props_read l n p.
  Proof. intros H []. constructor; assumption. Qed.
  Lemma value_level n e : value_ok l e -> value_read k n e -> value_read l n e.
  Proof. intros H []. constructor; assumption. Qed.
  Lemma values_level n e : (forall x, in_values e x -> element_ok l x) -> values_read k n e -> values_read l n e.
  Proof.
    intros H []. constructor; try assumption; [|exact (H _ (iv_self e))].
    apply (each_mono _ _ _ _ _ sr_values). intros c x I. apply value_level. exact (H _ (iv_value _ _ I)).
  Qed.
  Lemma dim_level n d : fine_index d -> dim_read k n d -> dim_read l n d.
  Proof.
    intros H []. constructor; try assumption. revert dr_array_index. apply member_mono. intros c x E [A B]. constructor; [exact A|].
    apply (each_mono _ _ _ _ _ B). intros c' v I. apply value_level. exact (H x v E I).
  Qed.
  Lemma array_level {A} t (name : A -> string) (R R' : xml -> A -> Prop) n x : (forall i, info x = i -> R n i -> R' n i) ->
    (forall i d, x = Array i d -> fine_index d) -> array_read k t name R n x -> array_read l t name R' n x.
  Proof.
    intros H D K. destruct K as [i T X N|i d T X Dr P I].
    - apply ar_one; auto.
    - apply ar_many; auto. exact (dim_level _ _ (D i d eq_refl) Dr).
  Qed.
  Lemma field_level n f : (forall x, in_field f x -> element_ok l x) -> field_read m k g n f -> field_read m l g n f.
  Proof.
    intros H []. constructor; try assumption; [|exact (H _ (if_self f))]. destruct g; [assumption|].
    apply (each_mono _ _ _ _ _ fr_values). intros c x I. apply values_level. intros y Y. exact (H _ (if_values _ _ _ I Y)).
  Qed.
  Lemma register_level n r : (forall x, in_register r x -> element_ok l x) -> (forall s d, array_in_register r s d -> fine_index d) ->
    register_read m k g n r -> register_read m l g n r.
  Proof.
    intros H D []. constructor; try assumption; [| |exact (H _ (ir_self r))].
    - exact (props_level _ _ (H _ (ir_props r)) rr_props).
    - revert rr_fields. apply member_mono. intros c fs E F. apply (each_mono _ _ _ _ _ F). intros c' f I. apply array_level.
      + intros i <-. apply field_level. intros x X. exact (H _ (ir_field _ _ _ _ E I X)).
      + intros i d ->. exact (D _ _ (ar_field _ _ _ _ E I)).
  Qed.
  Lemma block_level rc : forall n, (forall x, in_rc rc x -> element_ok l x) -> (forall s d, array_in_rc rc s d -> fine_index d) ->
    block_read m k g n rc -> block_read m l g n rc.
  Proof.
    induction rc as [r|c IH] using rc_tree_ind; intros n H D K; inversion K as [? X|? X]; subst.
    - apply bk_register. revert X. apply array_level.
      + intros i <-. apply register_level; [intros x X; apply H; now constructor|]. intros s d A. apply (D s). now constructor.
      + intros i d ->. exact (D _ _ (ac_register i d)).
    - rewrite Forall_forall in IH. apply bk_cluster. revert X. apply array_level.
      + intros i <- []. constructor; try assumption; [| |exact (H _ (ic_self c))].
        * exact (props_level _ _ (H _ (ic_props c)) kr_props).
        * apply (each_mono _ _ _ _ _ kr_children). intros c' x I. apply (IH x I).
          -- intros y Y. exact (H _ (ic_child _ _ _ I Y)).
          -- intros s d A. exact (D _ _ (ac_child _ _ _ _ I A)).
      + intros i d ->. exact (D _ _ (ac_cluster i d)).
  Qed.
  Lemma peripheral_level n p : (forall x, in_peripheral p x -> element_ok l x) -> (forall s d, array_in_peripheral p s d -> fine_index d) ->
    peripheral_read m k g n p -> peripheral_read m l g n p.
  Proof.
    intros H D []. constructor; try assumption; [| |exact (H _ (ip_self p))].
    - exact (props_level _ _ (H _ (ip_props p)) pe_props).
    - revert pe_registers. apply member_mono. intros c rs E F. apply (each_mono _ _ _ _ _ F). intros c' x I. apply block_level.
      + intros y Y. exact (H _ (ip_child _ _ _ _ E I Y)).
      + intros s d A. exact (D _ _ (ap_child _ _ _ _ _ E I A)).
  Qed.
  Lemma or_default_level {A} (R : option A -> Prop) dflt x : (l = Strict -> ~ R None) -> or_default k R dflt x -> or_default l R dflt x.
  Proof.
    intros H [K|(_ & K & E)]; [now left|]. right. split; [|auto]. intros L. exact (H L K).
  Qed.
  Lemma device_level n d : (forall x, in_device d x -> element_ok l x) -> index_values_ok l d -> (l = Strict -> header_given n) ->
    device_read m k g n d -> device_read m l g n d.
  Proof.
    intros H D G []. constructor; try assumption; try exact (H _ (id_self d)).
    - revert de_version. apply or_default_level. intros L [N|(c & F & N)]; destruct (G L) as ((s & c0 & F0 & C) & _).
      + exact (no_first _ _ _ N F0).
      + rewrite (first_unique _ _ _ _ F F0) in N. exact (N s C).
    - revert de_description. apply or_default_level. intros L [N|(c & F & N)]; destruct (G L) as (_ & (s & c0 & F0 & C) & _).
      + exact (no_first _ _ _ N F0).
      + rewrite (first_unique _ _ _ _ F F0) in N. exact (N s C).
    - revert de_unit. apply or_default_level. intros L N. destruct (G L) as (_ & _ & (c & F) & _). exact (no_first _ _ _ N F).
    - revert de_width. apply or_default_level. intros L N. destruct (G L) as (_ & _ & _ & (c & F)). exact (no_first _ _ _ N F).
    - exact (props_level _ _ (H _ (id_props d)) de_props).
    - revert de_peripherals. apply the_mono. intros c F. apply (each_mono _ _ _ _ _ F). intros c' p I. apply array_level.
      + intros i <-. apply peripheral_level; [intros x X; exact (H _ (id_peripheral _ _ _ I X))|].
        intros s a A x v. exact (D _ _ _ _ (ad_child _ _ _ _ I A)).
      + intros i a -> x v. exact (D _ _ _ _ (ad_peripheral _ _ _ I)).
  Qed.
End Level.

Section Found.
  Variables (m : mode) (g : bool) (l : level).

  Lemma dim_fine n d : dim_read l n d -> fine_index l d.
  Proof.
    intros [] x v E I. rewrite E in dr_array_index. destruct dr_array_index as (c & _ & [_ B]).
    destruct (each_in _ _ _ _ _ B I) as (c' & V). exact (vr_ok _ _ _ V).
  Qed.
  Lemma array_fine {A} t (name : A -> string) (R : xml -> A -> Prop) n x i d : array_read l t name R n x -> x = Array i d -> fine_index l d.
  Proof. intros K ->. inversion K; subst. eapply dim_fine. eassumption. Qed.
  Lemma array_inner {A} t (name : A -> string) (R : xml -> A -> Prop) n x : array_read l t name R n x -> R n (info x).
  Proof. now destruct 1. Qed.
  Lemma register_fine n r s d : register_read m l g n r -> array_in_register r s d -> fine_index l d.
  Proof.
    intros [] K. destruct K as [fs f d E I]. rewrite E in rr_fields. destruct rr_fields as (c & _ & F).
    destruct (each_in _ _ _ _ _ F I) as (c' & X). exact (array_fine _ _ _ _ _ _ _ X eq_refl).
  Qed.
  Lemma block_fine rc : forall n s d, block_read m l g n rc -> array_in_rc rc s d -> fine_index l d.
  Proof.
    induction rc as [r|c IH] using rc_tree_ind; intros n s d K A; inversion K as [? X|? X]; subst.
    - inversion A; subst; [exact (array_fine _ _ _ _ _ _ _ X eq_refl)|]. eapply register_fine; [exact (array_inner _ _ _ _ _ X)|eassumption].
    - rewrite Forall_forall in IH. inversion A as [| | |? rc ? ? I B]; subst; [exact (array_fine _ _ _ _ _ _ _ X eq_refl)|].
      apply array_inner in X. destruct X. destruct (each_in _ _ _ _ _ kr_children I) as (c' & Y). exact (IH rc I _ _ _ Y B).
  Qed.
  Lemma device_fine n d : device_read m l g n d -> index_values_ok l d.
  Proof.
    intros [] s a x v A. destruct de_peripherals as (c & _ & F). revert x v. change (fine_index l a).
    destruct A as [p a I|p s a I A]; destruct (each_in _ _ _ _ _ F I) as (c' & X).
    - exact (array_fine _ _ _ _ _ _ _ X eq_refl).
    - apply array_inner in X. destruct X. destruct A as [rs rc s a E J B]. rewrite E in pe_registers.
      destruct pe_registers as (c2 & _ & G). destruct (each_in _ _ _ _ _ G J) as (c3 & Y). exact (block_fine _ _ _ _ Y B).
  Qed.
  Lemma device_header n d : l = Strict -> device_read m l g n d -> header_given n.
  Proof.
    intros L []. unfold or_default in *. rewrite L in *.
    destruct de_version as [V|(N & _)]; [|now destruct N]. destruct de_description as [D|(N & _)]; [|now destruct N].
    destruct de_unit as [U|(N & _)]; [|now destruct N]. destruct de_width as [W|(N & _)]; [|now destruct N].
    cbn in *. destruct U as (cu & U & _), W as (cw & W & _). repeat split; eauto.
  Qed.
End Found.
