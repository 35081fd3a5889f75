(** C90: chains of saving and loading. *)
From Coq Require Import Lia.
From Verif Require Import Base BaseFacts Types Config Xml Encode Parse Expand Validate Serde SpecParse SpecValidate SpecArray SpecSerde SpecXml SpecRound
  SpecAgain SpecExpand SpecTravel TravelProofs FitProofs AgainProofs SurviveProofs PropParse PropRound PropSerde PropExpand PropValidate PropAgain.

(** ** C90: a description survives any chain of saving and loading *)

(** Any ways, XML and serde, in any order and number: each succeeds, and what comes out in the end is what went in. *)
Theorem C90_chain : forall ts d, device_listed d -> usual_header d -> Forall (suits d) ts ->
  travels ts d d /\ forall e, travels ts d e -> e = d.
Proof.
  intros ts d L U S. assert (T : travels ts d d) by (apply stays; [now apply SerdeMore.b_device_id|exact S]).
  split; [exact T|]. intros e E. eapply travels_unique; eauto.
Qed.
Print Assumptions C90_chain.
(** Without these conditions: what the serde form loses is lost on the first such way, and nothing later. *)
Theorem C90_settles : forall ts d e, Forall (suits d) ts ->
  (travels ts d e <-> (Exists is_data ts /\ e = b_device d) \/ (~ Exists is_data ts /\ e = d)).
Proof.
  intros ts d e S. destruct (settles ts d S) as [A B]. split.
  - intros T. assert (D : Exists is_data ts \/ ~ Exists is_data ts).
    { destruct (Exists_dec is_data ts) as [X|X]; auto. intros []; cbn; auto. }
    destruct D as [D|D]; [left|right]; (split; [exact D|]); eapply travels_unique; eauto.
  - intros [[D ->]|[D ->]]; auto.
Qed.
Print Assumptions C90_settles.
(** What can be asked of a way beforehand. *)
Definition way (l : level) (t : trip) : Prop :=
  match t with
  | AsXml _ _ _ cfg pcfg => no_cases cfg /\ in_place cfg /\ pc_ignore_enums pcfg = false /\ pc_level pcfg = l
  | AsData _ _ => True
  end.
(** A document read and expanded: through any chain the description stays, but for the attributes of the root. *)
Theorem C90_expanded : forall m1 m2 fuel pcfg n d e ts, no_blanks n -> device_parse m1 pcfg n = Ok d ->
  (forall f, in_device d (EField f) -> can_write f) -> (forall s a, array_in_device d s a -> tidy_array a) ->
  expand m2 fuel d = Ok e -> device_validate_all (pc_level pcfg) e = Ok tt -> Forall (way (pc_level pcfg)) ts ->
  exists e', travels ts e e' /\ ((Exists is_data ts /\ e' = with_header e) \/ (~ Exists is_data ts /\ e' = e)).
Proof.
  intros m1 m2 fuel pcfg n d e ts NB P W T E V H.
  pose proof (C32_flat _ _ _ _ E) as F.
  assert (X : device_fits (pc_level pcfg) e).
  { eapply expanded_fits; [exact (device_read m1 pcfg n d NB P W)|exact T|exact (C37_meaning _ _ _ _ E)|]. now apply C53_device_tree. }
  assert (Y : forall w, device_in w e).
  { intros w. eapply (expanded_holds indexes_in (bits_in w) m2 d); [| |exact (C37_meaning _ _ _ _ E)].
    - eapply device_more; [|eapply device_num; [|exact P]]; [|exact (parsed_ranged m1)]. cbv beta. intros f I R.
      split; [exact (proj1 R)|]. split; [exact (proj2 R)|]. intros K. destruct (W f I K) as [A B].
      split; [exact A|]. split; [lia|intros _; exact B].
    - intros b o (A & B & _) O. split; [exact O|]. split; [exact B|]. intros K. now destruct K. }
  assert (S : Forall (suits e) ts).
  { eapply Forall_impl; [|exact H]. intros [w r conv cfg pc|w r]; cbn.
    - intros (A & B & C & D). rewrite D. conjs; auto. intros s a K. destruct (flat_no_arrays _ _ _ F K).
    - intros _. apply Y. }
  destruct (settles ts e S) as [A B]. rewrite (b_device_flat e F) in A.
  destruct (Exists_dec is_data ts) as [D|D]; [intros []; cbn; auto|exists (with_header e)|exists e]; auto.
Qed.
Print Assumptions C90_expanded.

(** ** Examples *)
Definition keeps : trip := AsXml Debug Release (fun _ s => s) config_default strictly.
Definition there : list trip := [keeps; AsData Debug Debug; keeps; AsData Release Debug; AsData Debug Release; keeps].
Lemma headed_suits t : In t there -> suits headed t.
Proof.
  assert (X : suits headed keeps).
  { split; [repeat split|]. split; [repeat split|]. split; [reflexivity|]. split; [exact described_fits|].
    intros s a I. apply (described_calm Debug s a). inversion I; subst; econstructor; eauto. }
  assert (Y : device_in Release headed).
  { pose proof headed_in as Y. unfold device_in in *. eapply device_more; [|exact Y].
    intros f _ (A & B & C). split; [exact A|]. split; [exact B|]. intros K. destruct (C K) as (D & E & _). repeat split; auto. discriminate. }
  intros I. repeat (destruct I as [<-|I]; [first [exact X|exact Y|exact headed_in]|]). destruct I.
Qed.
Example C90_chain_example : device_listed headed /\ usual_header headed /\ Forall (suits headed) there /\ travels there headed headed.
Proof.
  assert (S : Forall (suits headed) there) by (apply Forall_forall; exact headed_suits).
  split; [exact described_listed|]. split; [repeat split|]. split; [exact S|].
  apply C90_chain; [exact described_listed|repeat split|exact S].
Qed.
(** The attributes of its root are lost once. *)
Lemma described_suits t : In t there -> suits described t.
Proof.
  intros I. apply headed_suits in I. destruct t; [|exact I]. destruct I as (A & B & C & D & E). split; [exact A|]. split; [exact B|]. split; [exact C|]. split; [exact D|].
  intros s a K. apply (E s). inversion K; subst; econstructor; eauto.
Qed.
Example C90_settles_example : Forall (suits described) there /\ Exists is_data there /\
  travels there described headed /\ headed <> described /\ travels [keeps; keeps] described described.
Proof.
  assert (S : Forall (suits described) there) by (apply Forall_forall; exact described_suits).
  assert (D : Exists is_data there) by (right; left; exact I).
  split; [exact S|]. split; [exact D|]. split; [apply (C90_settles there described headed S); left; auto|]. split; [discriminate|].
  apply C90_settles.
  - inversion S as [|? ? K]; subst. constructor; [exact K|]. constructor; [exact K|constructor].
  - right. split; [|reflexivity]. intros X. repeat (inversion X as [? ? Y|? ? Y]; subst; clear X; rename Y into X; try exact X).
Qed.
Definition bare_expanded : device := Eval vm_compute in dv (expand Debug 20 bare_read).
Example C90_expanded_example : expand Debug 20 bare_read = Ok bare_expanded /\ device_validate_all Strict bare_expanded = Ok tt /\
  Forall (way Strict) there /\ exists e, travels there bare_expanded e /\ e = with_header bare_expanded /\ e <> bare_expanded.
Proof.
  destruct C79_filled_example as (A & B & C & D & _).
  assert (E : expand Debug 20 bare_read = Ok bare_expanded) by (vm_compute; reflexivity).
  assert (V : device_validate_all Strict bare_expanded = Ok tt) by (vm_compute; reflexivity).
  assert (W : Forall (way Strict) there) by (repeat (apply Forall_cons; [cbn; repeat split|]); apply Forall_nil).
  split; [exact E|]. split; [exact V|]. split; [exact W|].
  destruct (C90_expanded Debug Debug 20 strictly bare_doc bare_read bare_expanded there A B C D E V W) as (e & T & [[_ X]|[X _]]).
  - exists e. split; [exact T|]. split; [exact X|]. subst e. discriminate.
  - destruct X. right. left. exact I.
Qed.
