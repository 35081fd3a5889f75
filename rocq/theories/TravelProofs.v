(** Proofs of C90: chains of saving and loading. *)
From Coq Require Import List NArith String.
Import ListNotations.
From Verif Require Import Base BaseFacts Types Config Xml Encode Parse Serde SpecParse SpecArray SpecSerde SpecRound SpecAgain SpecValidate
  TreeFacts SerdeMore SpecTravel SurviveProofs AgainProofs PropRound PropSerde SpecExpand PropExpand.

Lemma makes_unique t d e e' : makes t d e -> makes t d e' -> e = e'.
Proof. destruct t; cbn; intros (x & A & B) (y & C & D); congruence. Qed.
Lemma travels_unique ts : forall d e e', travels ts d e -> travels ts d e' -> e = e'.
Proof.
  induction ts as [|t ts IH]; intros d e e' A B; inversion A; inversion B; subst; [reflexivity|].
  match goal with H : makes t d ?x, K : makes t d ?y |- _ => assert (x = y) by (eapply makes_unique; eauto); subst end. eauto.
Qed.
Lemma makes_xml w r conv cfg pcfg d : suits d (AsXml w r conv cfg pcfg) -> makes (AsXml w r conv cfg pcfg) d d.
Proof. intros (A & B & C & D & E). apply C41_round_trip; auto. Qed.
Lemma makes_data w r d : suits d (AsData w r) -> makes (AsData w r) d (b_device d).
Proof. intros H. now apply C50_round_trip. Qed.
Lemma stays ts d : b_device d = d -> Forall (suits d) ts -> travels ts d d.
Proof.
  intros B H. induction H as [|t ts S H IH]; econstructor; [|exact IH].
  destruct t; [now apply makes_xml|]. pose proof (makes_data _ reader _ S) as X. now rewrite B in X.
Qed.

(** ** Going back is done once *)
Lemma b_any_listed {A} (f : A -> A) x a d : b_any f x = Array a d -> de_index d <> None.
Proof. destruct x as [i|i e]; cbn; [discriminate|]. destruct (de_index e) eqn:E; [|discriminate]. intros H. injection H as <- <-. congruence. Qed.
Lemma info_b_any {A} (f : A -> A) x : info (b_any f x) = f (info x).
Proof. destruct x as [i|i e]; cbn; [reflexivity|]. now destruct (de_index e). Qed.
Lemma b_register_listed r n a : array_in_register (b_register r) n a -> de_index a <> None.
Proof.
  intros [fs f d E I]. cbn in E. destruct (r_fields r) as [l|]; [|discriminate]. cbn in E. injection E as <-.
  apply in_map_iff in I as (x & E & _). eapply b_any_listed, E.
Qed.
Lemma b_rc_listed rc : forall n a, array_in_rc (b_rc rc) n a -> de_index a <> None.
Proof.
  induction rc as [r|c IH] using rc_tree_ind; intros n a H; cbn [b_rc] in H.
  - inversion H as [? ? E|? ? ? I|?|?]; subst; [eapply b_any_listed; symmetry; eassumption|].
    rewrite info_b_any in I. eapply b_register_listed, I.
  - inversion H as [?|?|? ? E|? rc ? ? I J]; subst; [eapply b_any_listed; symmetry; eassumption|].
    rewrite info_b_any in I. cbn in I. apply in_map_iff in I as (x & <- & I). rewrite Forall_forall in IH. eapply IH; eauto.
Qed.
Lemma b_device_listed d : device_listed (b_device d).
Proof.
  intros n a [p x I|p m x I J]; cbn in I; apply in_map_iff in I as (q & E & _); [eapply b_any_listed, E|].
  subst p. rewrite info_b_any in J. destruct J as [rs rc m x R I J]. cbn in R.
  destruct (p_registers (info q)) as [l|]; [|discriminate]. cbn in R. injection R as <-.
  apply in_map_iff in I as (y & <- & _). eapply b_rc_listed, J.
Qed.
Lemma b_device_twice d : b_device (b_device d) = b_device d.
Proof. apply b_device_id; [apply b_device_listed|repeat split]. Qed.

(** ** What comes back suits the same ways *)
Lemma map_not_nil {A B} (f : A -> B) l : l <> [] -> map f l <> [].
Proof. now destruct l. Qed.
Section Back.
  Variable l : level.
  Lemma any_back {A} (name : A -> string) (P : A -> Prop) (f : A -> A) x :
    (P (info x) -> P (f (info x))) -> name (f (info x)) = name (info x) -> any_fits l name P x -> any_fits l name P (b_any f x).
  Proof.
    destruct x as [a|a d]; cbn; intros H N; [exact H|]. intros (X & D & K). destruct (de_index d); cbn; [|auto].
    rewrite N. auto.
  Qed.
  Lemma fields_back fs : Forall (any_fits l f_name (field_fits l)) fs -> Forall (any_fits l f_name (field_fits l)) (map b_field fs).
  Proof. intros H. apply Forall_map. eapply Forall_impl; [|exact H]. intros f. now apply any_back. Qed.
  Lemma register_back r : register_fits l r -> register_fits l (b_register r).
  Proof.
    intros (A1 & A2 & A3 & A4 & A5 & A6 & A7 & A8 & A9 & A10). unfold register_fits. cbn. conjs; auto.
    - destruct (r_fields r) as [fs|]; cbn in *; [|auto]. destruct A9 as [N F]. split; [now apply map_not_nil|now apply fields_back].
    - unfold register_ok in *. cbn. intros S. destruct (A10 S) as (B1 & B2 & B3 & B4 & B5). conjs; auto. intros D E. apply (B5 D).
      destruct (r_fields r) as [[|]|]; cbn in *; congruence.
  Qed.
  Lemma rc_back rc : rc_fits l rc -> rc_fits l (b_rc rc).
  Proof.
    induction rc as [r|c IH] using rc_tree_ind; intros H; inversion H as [? F|? F K]; subst; cbn [b_rc].
    - constructor. apply any_back; auto. apply register_back.
    - constructor.
      + apply any_back; auto. intros (A1 & A2 & A3 & A4 & A5 & A6 & A7). unfold cluster_fits. cbn. conjs; auto.
        unfold cluster_ok in *. cbn. intros S. destruct (A7 S) as (B1 & B2 & B3). conjs; auto. intros D. apply map_not_nil. now apply B3.
      + rewrite info_b_any. cbn. apply Forall_map. rewrite Forall_forall in *. intros rc I. now apply IH; [|apply K].
  Qed.
  Lemma peripheral_back p : peripheral_fits l p -> peripheral_fits l (b_peripheral p).
  Proof.
    intros (A1 & A2 & A3 & A4 & A5 & A6 & A7 & A8 & A9 & A10 & A11 & A12 & A13 & A14 & A15). unfold peripheral_fits. cbn. conjs; auto.
    - destruct (p_registers p) as [rs|]; cbn in *; [|auto]. apply Forall_map. eapply Forall_impl; [exact rc_back|exact A14].
    - unfold peripheral_ok in *. cbn. intros S. destruct (A15 S) as (B1 & B2 & B3). conjs; auto. intros D E. apply (B3 D).
      destruct (p_registers p) as [[|]|]; cbn in *; congruence.
  Qed.
  Lemma device_fits_back d : device_fits l d -> device_fits l (b_device d).
  Proof.
    intros (A1 & A2 & A3 & A4 & A5 & A6 & A7 & A8 & A9 & A10 & A11 & A12 & A13 & A14 & A15). unfold device_fits. cbn. conjs; auto.
    - apply Forall_map. eapply Forall_impl; [|exact A14]. intros p. apply any_back; [apply peripheral_back|reflexivity].
    - unfold device_ok in *. cbn. intros C. apply map_not_nil. now apply A15.
  Qed.
End Back.
Section Held.
  Variables (J : list string -> Prop) (B : bit_range -> Prop).
  Lemma any_held {A} (P : A -> Prop) (f : A -> A) x : (P (info x) -> P (f (info x))) -> any_holds J P x -> any_holds J P (b_any f x).
  Proof. destruct x as [a|a d]; cbn; intros H; [exact H|]. intros [X D]. destruct (de_index d); cbn; auto. Qed.
  Lemma rc_held rc : rc_holds J B rc -> rc_holds J B (b_rc rc).
  Proof.
    induction rc as [r|c IH] using rc_tree_ind; intros H; inversion H as [? F|? F K]; subst; cbn [b_rc].
    - constructor. apply any_held; auto. intros (A1 & A2 & A3 & A4). unfold register_holds. cbn. conjs; auto.
      destruct (r_fields (info r)) as [fs|]; cbn in *; [|auto]. apply Forall_map. eapply Forall_impl; [|exact A4].
      intros f. now apply any_held.
    - constructor; [now apply any_held|]. rewrite info_b_any. cbn. apply Forall_map. rewrite Forall_forall in *. intros rc I. now apply IH; [|apply K].
  Qed.
  Lemma device_held d : device_holds J B d -> device_holds J B (b_device d).
  Proof.
    intros (A1 & A2 & A3 & A4 & A5). unfold device_holds. cbn. conjs; auto. apply Forall_map. eapply Forall_impl; [|exact A5].
    intros p. apply any_held. intros (C1 & C2 & C3 & C4 & C5). unfold peripheral_holds. cbn. conjs; auto.
    destruct (p_registers (info p)) as [rs|]; cbn in *; [|auto]. apply Forall_map. eapply Forall_impl; [exact rc_held|exact C5].
  Qed.
End Held.
Lemma b_any_array {A} (f : A -> A) x a d : b_any f x = Array a d -> exists i, x = Array i d /\ a = f i.
Proof. destruct x as [i|i e]; cbn; [discriminate|]. destruct (de_index e); [|discriminate]. intros H. injection H as <- <-. eauto. Qed.
Lemma register_arrays_back r n a : array_in_register (b_register r) n a -> array_in_register r n a.
Proof.
  intros [fs f d E I]. cbn in E. destruct (r_fields r) as [k|] eqn:R; [|discriminate]. cbn in E. injection E as <-.
  apply in_map_iff in I as (x & E & I). apply b_any_array in E as (i & -> & ->). exact (ar_field r k i d R I).
Qed.
Lemma rc_arrays_back rc : forall n a, array_in_rc (b_rc rc) n a -> array_in_rc rc n a.
Proof.
  induction rc as [r|c IH] using rc_tree_ind; intros n a H; cbn [b_rc] in H.
  - inversion H as [r' d' E|? ? ? I|?|?]; subst.
    + symmetry in E. apply b_any_array in E as (i & -> & ->). exact (ac_register i a).
    + rewrite info_b_any in I. apply ac_in_register. now apply register_arrays_back.
  - inversion H as [?|?|c' d' E|? rc ? ? I J]; subst.
    + symmetry in E. apply b_any_array in E as (i & -> & ->). exact (ac_cluster i a).
    + rewrite info_b_any in I. cbn in I. apply in_map_iff in I as (x & <- & I). rewrite Forall_forall in IH. eapply ac_child; eauto.
Qed.
Lemma device_arrays_back d n a : array_in_device (b_device d) n a -> array_in_device d n a.
Proof.
  intros [p x I|p m x I J]; cbn in I; apply in_map_iff in I as (q & E & I).
  - apply b_any_array in E as (i & -> & ->). exact (ad_peripheral d i x I).
  - subst p. rewrite info_b_any in J. destruct J as [rs rc m x R K J]. cbn in R.
    destruct (p_registers (info q)) as [k|] eqn:Q; [|discriminate]. cbn in R. injection R as <-.
    apply in_map_iff in K as (y & <- & K). eapply ad_child; [exact I|]. econstructor; [exact Q|exact K|]. now apply rc_arrays_back.
Qed.
Lemma suits_back d t : suits d t -> suits (b_device d) t.
Proof.
  destruct t as [w r conv cfg pcfg|w r]; cbn.
  - intros (A & B & C & D & E). split; [exact A|]. split; [exact B|]. split; [exact C|]. split; [now apply device_fits_back|].
    intros s a I. apply (E s). now apply device_arrays_back.
  - apply device_held.
Qed.
Lemma settles ts d : Forall (suits d) ts ->
  (Exists is_data ts -> travels ts d (b_device d)) /\ (~ Exists is_data ts -> travels ts d d).
Proof.
  intros H. induction H as [|t ts S H [IH1 IH2]].
  - split; [intros X; inversion X|constructor].
  - destruct t as [w r conv cfg pcfg|w r].
    + split; intros X; (econstructor; [apply makes_xml; exact S|]).
      * apply IH1. now inversion X as [? ? K|? ? K]; subst; [destruct K|].
      * apply IH2. intros K. apply X. now constructor 2.
    + split; intros X; [|destruct X; now constructor 1].
      econstructor; [apply makes_data; exact S|]. apply stays; [apply b_device_twice|].
      eapply Forall_impl; [|exact H]. intros t. apply suits_back.
Qed.
