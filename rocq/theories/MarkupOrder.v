(** Everything the encoder writes can be put into text and read back. *)
From Verif Require Import Base BaseFacts Xml XmlFacts SpecLayout ParseProofs SpecOrder SpecMarkup MarkupProofs.

Lemma follows_tags s l : follows s l -> forall t, In t l -> In t (List.concat (map fst s)).
Proof.
  intros F. induction F as [|ts t s l I F IH|ts s l F IH|ts t s l I F IH|ts s l F IH|ts t s l I F IH|ts t s l I F IH]; intros u; cbn [map List.concat fst In].
  - tauto.
  - intros [<-|U]; apply in_or_app; auto.
  - intros U. apply in_or_app. auto.
  - intros [<-|U]; apply in_or_app; auto.
  - intros U. apply in_or_app. auto.
  - intros [<-|U]; [apply in_or_app; auto|]. exact (IH u U).
  - intros [<-|U]; [apply in_or_app; auto|]. exact (IH u U).
Qed.
Lemma all_names : forallb (fun e => is_xml_name (fst e) && structured (fst e) && forallb is_xml_name (List.concat (map fst (snd e)))) contents = true.
Proof. vm_compute. reflexivity. Qed.
Lemma order_tidy n : in_order n -> plain_tree n -> is_xml_name (name_of n) = true -> tidy n.
Proof.
  induction n as [t a l IH|s|] using xml_tree_ind; intros O P N; [|inversion O..].
  inversion O as [t0 s Nt|t0 a0 s l0 I A F Fl]; subst.
  - apply td_leaf; [exact N|]. split; constructor.
  - pose proof all_names as K. rewrite forallb_forall in K. specialize (K _ I). cbn [fst snd] in K.
    rewrite !andb_true_iff in K. destruct K as [[K1 K2] K3]. rewrite forallb_forall in K3.
    apply td_node; [exact K1| |exact K2|].
    + assert (V : forall k v, In (k, v) a -> plain_attr v) by (intros k v J; apply (proj2 P); eapply vi_here; exact J).
      assert (Q : forall names, map fst a = names -> NoDup names -> forallb is_xml_name names = true -> attrs_ok a).
      { intros names <- D B. split; [exact D|]. rewrite forallb_forall in B. rewrite Forall_forall. intros [k v] J. cbn [fst snd]. split; [|eauto].
        apply B. apply (in_map fst) in J. exact J. }
      destruct A as [[-> A]|[[_ A]|[_ ->]]].
      * apply (Q _ A); [|reflexivity]. repeat constructor; cbn; intuition discriminate.
      * apply (Q _ A); [|reflexivity]. repeat constructor; cbn; intuition discriminate.
      * split; constructor.
    + rewrite Forall_forall in *. intros c Ic. apply IH; [exact Ic|exact (Fl _ Ic)| |].
      * split; intros z Z; [apply (proj1 P); eapply ti_below; eauto|apply (proj2 P); eapply vi_below; eauto].
      * apply K3. apply (follows_tags _ _ F). apply (in_map name_of). exact Ic.
Qed.
(** Whether a tree can be put into text, computed. *)
Fixpoint plain_treeb (n : xml) : bool :=
  match n with
  | Text s => sforall (fun c => xml_char c && negb (Ascii.eqb c cr)) s
  | Misc => true
  | Elem _ a l => forallb (fun kv => sforall (fun c => xml_char c && negb (Ascii.eqb c tab)) (snd kv)) a && forallb plain_treeb l
  end.
Lemma plain_treeb_ok n : plain_treeb n = true -> plain_tree n.
Proof.
  induction n as [t a l IH|s|] using xml_tree_ind; cbn [plain_treeb].
  - rewrite andb_true_iff, !forallb_forall. intros [A L]. rewrite Forall_forall in IH. split.
    + intros s H. inversion H as [|? ? ? n ? I K]; subst. exact (proj1 (IH n I (L n I)) s K).
    + intros v H. inversion H as [? ? ? k ? I|? ? ? n ? I K]; subst; [exact (A _ I)|]. exact (proj2 (IH n I (L n I)) v K).
  - intros H. split; [|intros v K; inversion K]. intros u K. inversion K; subst. exact H.
  - intros _. split; intros s K; inversion K.
Qed.
