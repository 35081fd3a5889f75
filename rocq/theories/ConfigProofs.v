From Verif Require Import Base BaseFacts Num Types Config ArrayProofs SpecArray SpecConfig.

Lemma has_part_in s ps : has_part s ps = true <-> In s ps.
Proof.
  unfold has_part. rewrite existsb_exists. split.
  - intros (x & Hx & E). apply seqb_eq in E. now subst.
  - intros H. exists s. now rewrite seqb_refl.
Qed.
Lemma has_part_not s ps : has_part s ps = false <-> ~ In s ps.
Proof. rewrite <- has_part_in. destruct (has_part s ps); split; congruence. Qed.

Ltac parts :=
  repeat match goal with
  | |- context [if has_part ?s ?ps then _ else _] =>
      let E := fresh "E" in destruct (has_part s ps) eqn:E;
      [apply has_part_in in E | apply has_part_not in E]
  end.

Lemma sorting_spec ps s : sorting_from_parts ps = s <-> sort_keyword ps s.
Proof.
  unfold sorting_from_parts. split.
  - intros <-. parts; now constructor.
  - intros []; parts; congruence || contradiction.
Qed.
Lemma derivable_spec ps s : derivable_from_parts ps = s <-> derivable_keyword ps s.
Proof.
  unfold derivable_from_parts. split.
  - intros <-. parts; constructor; auto; now apply sorting_spec.
  - intros [t H K|t H K]; apply sorting_spec in K; subst; parts; congruence || contradiction.
Qed.
Lemma rc_spec t s : rc_sorting_parse t = Some s <-> exists ps, cut "," t ps /\ rc_keyword ps s.
Proof.
  unfold rc_sorting_parse. split.
  - intros E. exists (split "," t). split; [now apply cut_split|]. injection E as <-.
    parts; constructor; auto; now apply derivable_spec.
  - intros (ps & C & K). apply cut_split in C. subst.
    destruct K as [d H K|d H1 H2 K|d H1 H2 K]; apply derivable_spec in K; subst; parts; congruence || contradiction.
Qed.
Lemma order_spec t s : derivable_sorting_parse t = Some s <-> exists ps, cut "," t ps /\ derivable_keyword ps s.
Proof.
  unfold derivable_sorting_parse. split.
  - intros E. injection E as <-. exists (split "," t). split; [now apply cut_split|]. now apply derivable_spec.
  - intros (ps & C & K). apply cut_split in C. subst. apply derivable_spec in K. now subst.
Qed.

Ltac keywords f :=
  intros; unfold f; cbn [In]; split;
  [ repeat match goal with
    | |- (if seqb ?a ?b then _ else _) = _ -> _ =>
        let E := fresh "E" in destruct (seqb a b) eqn:E;
        [apply seqb_eq in E; subst; let X := fresh in intros X; injection X as <-; tauto|]
    end; discriminate
  | let H := fresh in
    intros H; repeat (destruct H as [H|H]; [injection H as <- <-; reflexivity|]); contradiction ].
Lemma id_spec s f : id_format_parse s = Some f <->
  In (s, f) [("Camel", Camel); ("Pascal", Pascal); ("Snake", Snake); ("Constant", Constant)].
Proof. keywords id_format_parse. Qed.
Lemma number_spec s f : number_format_parse s = Some f <->
  In (s, f) [("UpperHex", UpperHex); ("UpperHex8", UpperHex8); ("UpperHex16", UpperHex16);
             ("LowerHex", LowerHex); ("LowerHex8", LowerHex8); ("LowerHex16", LowerHex16);
             ("Dec", Dec); ("Bin", Bin)].
Proof. keywords number_format_parse. Qed.
Lemma bits_spec s f : bit_range_format_parse s = Some f <->
  In (s, f) [("BitRange", BRT_BitRange); ("OffsetWidth", BRT_OffsetWidth); ("MsbLsb", BRT_MsbLsb)].
Proof. keywords bit_range_format_parse. Qed.

(** The value parsed for a kind. *)
Definition value_parse (k : kind) (t : string) : option cfg_value :=
  match k with
  | KName => option_map (fun f => VName (Some f)) (id_format_parse t)
  | KNumber => option_map VNumber (number_format_parse t)
  | KOrder => option_map VOrder (derivable_sorting_parse t)
  | KRcOrder => option_map VRcOrder (rc_sorting_parse t)
  | KBits => option_map (fun f => VBits (Some f)) (bit_range_format_parse t)
  end.
Lemma value_parse_spec k t v : value_parse k t = Some v <-> denotes t k v.
Proof.
  split.
  - destruct k; cbn [value_parse]; intros H.
    + destruct (id_format_parse t) eqn:E; [|discriminate]. injection H as <-. constructor. now apply id_spec.
    + destruct (number_format_parse t) eqn:E; [|discriminate]. injection H as <-. constructor. now apply number_spec.
    + destruct (derivable_sorting_parse t) eqn:E; [|discriminate]. injection H as <-.
      apply order_spec in E as (ps & C & K). econstructor; eauto.
    + destruct (rc_sorting_parse t) eqn:E; [|discriminate]. injection H as <-.
      apply rc_spec in E as (ps & C & K). econstructor; eauto.
    + destruct (bit_range_format_parse t) eqn:E; [|discriminate]. injection H as <-. constructor. now apply bits_spec.
  - intros []; cbn [value_parse].
    + apply id_spec in H. now rewrite H.
    + apply number_spec in H. now rewrite H.
    + apply bits_spec in H. now rewrite H.
    + assert (E : derivable_sorting_parse t = Some s) by (apply order_spec; eauto). now rewrite E.
    + assert (E : rc_sorting_parse t = Some s) by (apply rc_spec; eauto). now rewrite E.
Qed.

(** Reading an option by position in the table. *)
Lemma update_cases c name value k g : In (name, k, g) options ->
  (exists v c', value_parse k value = Some v /\ update c name value = Ok c' /\ g c' = v /\
     forall n' k' g', In (n', k', g') options -> n' <> name -> g' c' = g' c)
  \/ (value_parse k value = None /\ update c name value = Panic Unwrap).
Proof.
  assert (Fr : forall c', (forall n' k' g', In (n', k', g') options -> n' <> name -> g' c' = g' c) <->
     Forall (fun o => fst (fst o) <> name -> snd o c' = snd o c) options).
  { intros c'. rewrite Forall_forall. split.
    - intros H [[n' k'] g'] I N. now apply (H n' k').
    - intros H n' k' g' I N. exact (H _ I N). }
  intros H.
  destruct (value_parse k value) as [v|] eqn:E; [left|right; split; [reflexivity|]].
  - cbn [options In] in H.
    repeat (destruct H as [H|H];
      [ injection H as <- <- <-; cbn [value_parse] in E; unfold option_map in E;
        match type of E with match ?p with _ => _ end = _ => destruct p eqn:P; [|discriminate] end;
        injection E as <-; eexists _, _; split; [reflexivity|]; split;
        [ cbv [update seqb String.eqb Ascii.eqb Bool.eqb]; rewrite P; reflexivity
        | split; [reflexivity|];
          apply Fr; unfold options; repeat apply Forall_cons; try apply Forall_nil;
          cbn [fst snd]; intros N; try reflexivity; exfalso; apply N; reflexivity ]
      |]); contradiction.
  - cbn [options In] in H.
    repeat (destruct H as [H|H];
      [ injection H as <- <- <-; cbn [value_parse] in E; unfold option_map in E;
        match type of E with match ?p with _ => _ end = _ => destruct p eqn:P; [discriminate|] end;
        cbv [update seqb String.eqb Ascii.eqb Bool.eqb]; rewrite P; reflexivity
      |]); contradiction.
Qed.

Lemma options_fun name k g k' g' : In (name, k, g) options -> In (name, k', g') options -> k = k' /\ g = g'.
Proof.
  assert (D : NoDup (map (fun o => fst (fst o)) options)).
  { unfold options. cbn [map fst].
    repeat (apply NoDup_cons; [cbn [In]; intuition discriminate|]). apply NoDup_nil. }
  revert D. generalize options as l. induction l as [|[[n k0] g0] l IH]; intros D A B; [contradiction|].
  cbn [map fst] in D. apply NoDup_cons_iff in D as [N D].
  destruct A as [A|A], B as [B|B].
  - injection A as -> -> ->. injection B as -> ->. auto.
  - injection A as -> -> ->. exfalso. apply N. apply (in_map (fun o => fst (fst o)) _ _ B).
  - injection B as -> -> ->. exfalso. apply N. apply (in_map (fun o => fst (fst o)) _ _ A).
  - auto.
Qed.

Lemma update_unknown c name value : (forall k, ~ option_kind name k) -> update c name value = Ok c.
Proof.
  intros H. unfold update.
  repeat match goal with
  | |- (if seqb ?a ?b then _ else _) = _ =>
      let E := fresh "E" in destruct (seqb a b) eqn:E;
      [exfalso; apply seqb_eq in E; subst; eapply H; eexists; cbn [options In]; repeat (left; reflexivity) || tauto|]
  end. reflexivity.
Qed.

Lemma options_ext c c' : (forall name v, option_of c name v -> option_of c' name v) -> c = c'.
Proof.
  intros H.
  assert (F : Forall (fun o => snd o c = snd o c') options).
  { rewrite Forall_forall. intros [[n k] g] I. destruct (H n (g c)) as (k' & g' & I' & E).
    - now exists k, g.
    - destruct (options_fun _ _ _ _ _ I I') as [_ <-]. exact E. }
  unfold options in F. clear H.
  repeat (apply Forall_cons_iff in F as [? F]). cbn [snd] in *.
  destruct c, c'. cbn in *.
  repeat match goal with H : _ _ = _ _ |- _ => injection H as H end. subst. reflexivity.
Qed.
