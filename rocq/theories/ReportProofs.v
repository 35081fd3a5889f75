(** Proofs about the report of a parse error (C70, C72). *)
From Verif Require Import BaseFacts Num Types Names Validate Builders Arrays Xml Parse SpecNum
  SpecValidate SpecText SpecXml XmlFacts SpecArray SpecParse
  ParseProofs ParseAt AtProofs SpecFault FaultProofs FaultMore FaultAll.

Lemma get_name_spec n : match get_name n with
  | Some s => exists c, first_child "name" n c /\ node_text c s
  | None => no_child "name" n \/ exists c, first_child "name" n c /\ forall s, ~ node_text c s end.
Proof.
  unfold get_name. change (find_first (has_tag "name") (children n)) with (get_child "name" n).
  destruct (get_child "name" n) as [c|] eqn:E.
  - apply get_child_first in E. destruct (text c) as [s|] eqn:T.
    + exists c. split; [exact E|now apply text_node].
    + right. exists c. split; [exact E|]. intros s S. apply text_node in S. congruence.
  - left. now apply get_child_none.
Qed.
Lemma tag_named n : tag n <> ""%string -> named (tag n) n.
Proof. destruct n as [t a l| |]; cbn; try congruence. intros _. now exists a, l. Qed.
Lemma named_tag k n : named k n -> tag n = k.
Proof. intros (a & l & ->). reflexivity. Qed.
Lemma introduces_line pos v n : introduces (pos v) n (node_line pos v n).
Proof.
  unfold node_line. destruct (str_empty (tag n)) eqn:E.
  - apply in_bare. intros k K. apply named_tag in K. destruct (tag n); [now subst|discriminate].
  - assert (T : tag n <> ""%string) by (intros T; rewrite T in E; discriminate). assert (G := get_name_spec n).
    destruct (get_name n).
    + destruct G as (c & F & S). now apply in_named with c; [|apply tag_named| |].
    + apply in_unknown; [exact T|now apply tag_named|exact G].
Qed.
Lemma mentioned_line n ns lines : mentioned ns lines -> mentioned (n :: ns) (parent_line n ++ lines).
Proof.
  intros M. unfold parent_line. assert (G := get_name_spec n).
  change ["device"; "peripheral"; "register"; "field"; "enumeratedValue"; "interrupt"]%string with mentionable.
  destruct (existsb (seqb (tag n)) mentionable) eqn:E.
  - assert (I : In (tag n) mentionable).
    { apply existsb_exists in E as (x & I & E). apply seqb_eq in E. now rewrite E. }
    assert (N : named (tag n) n).
    { apply tag_named. intros T. rewrite T in I. cbn in I. decompose [or] I; try discriminate; contradiction. }
    apply ms_line; [|exact M]. destruct (get_name n).
    + destruct G as (c & F & S). now apply me_named with c.
    + now apply me_unknown.
  - apply ms_skip; [|exact M]. intros k I N. apply named_tag in N. subst k. apply Bool.not_true_iff_false in E. apply E.
    apply existsb_exists. exists (tag n). split; [exact I|now apply seqb_eq].
Qed.

Lemma node_at_app n a b : node_at n (a ++ b) = match node_at n a with Some x => node_at x b | None => None end.
Proof. revert n. induction a as [|i a IH]; intros n; [reflexivity|]. cbn. destruct (nth_error (children n) i); [apply IH|reflexivity]. Qed.
Lemma trail_snoc n v ns x j c : trail n v (ns ++ [x]) -> nth_error (children x) j = Some c -> trail n (v ++ [j]) ((ns ++ [x]) ++ [c]).
Proof.
  intros T E. remember (ns ++ [x]) as path eqn:P. revert ns P. induction T as [n|t a l i d w path N T IH]; intros ns P.
  - destruct ns as [|y [|? ?]]; try discriminate. injection P as ->. destruct x; try (destruct j; discriminate). cbn in E.
    cbn. apply tr_down with c; [exact E|apply tr_here].
  - destruct ns as [|y ns].
    + injection P as _ ->. inversion T.
    + injection P as _ ->. cbn [app]. apply tr_down with d; [exact N|]. now apply IH with ns.
Qed.
(** The trail below the first step, and the lines about it *)
Lemma trail_lines root i dev : nth_error (children root) i = Some dev ->
  forall s x, node_at dev s = Some x ->
    exists ns, trail dev s (ns ++ [x]) /\ mentioned (rev ns) (parent_lines root (above (rev (i :: s)))).
Proof.
  intros N s. induction s as [|j s IH] using rev_ind; intros x E.
  - injection E as <-. exists []. split; [apply tr_here|]. cbn. apply ms_nil.
  - rewrite node_at_app in E. destruct (node_at dev s) as [y|] eqn:Y; [|discriminate]. cbn in E.
    destruct (nth_error (children y) j) as [c|] eqn:C; [|discriminate]. injection E as <-.
    destruct (IH y eq_refl) as (ns & T & M). exists (ns ++ [y]). split; [now apply trail_snoc|].
    replace (rev (i :: s ++ [j])) with (j :: rev (i :: s)) by (rewrite app_comm_cons, rev_app_distr; reflexivity).
    rewrite rev_app_distr. cbn [above]. rewrite rev_involutive. change (rev [y] ++ rev ns) with (y :: rev ns). cbn [parent_lines].
    replace (node_at root (i :: s)) with (Some y) by (cbn; rewrite N; exact (eq_sym Y)).
    apply mentioned_line. exact M.
Qed.

Lemma device_child root w x : get_child_at "device" [] root = Some (w, x) ->
  exists i, w = [i] /\ nth_error (children root) i = Some x /\ first_child "device" root x /\ named "device" x.
Proof.
  intros E. assert (F := E). apply child_at_some, get_child_first in F. apply child_at_place in E as (i & -> & N & K).
  exists i. auto.
Qed.

Section Report.
  Variable m : mode.
  Variable cfg : pconfig.
  Variable pos : ParseAt.place -> string.
  Variable root : xml.

  Lemma report_error e lines : parse_document m cfg pos root = Ok (inr (e, lines)) ->
    (no_child "device" root /\ e = EMissingTag "device" /\ lines = []) \/
    exists i dev s ns node line rest,
      nth_error (children root) i = Some dev /\ first_child "device" root dev /\ trail dev s (ns ++ [node]) /\
      fault (pc_level cfg) e node /\
      lines = line :: rest /\ introduces (pos (i :: s)) node line /\ mentioned (rev ns) rest.
  Proof.
    unfold parse_document. destruct (get_child_at "device" [] root) as [[w x]|] eqn:G.
    - destruct (device_child _ _ _ G) as (i & -> & N & F & K). destruct (device_at m cfg [i] x) as [d|e' v|p] eqn:D; try discriminate.
      apply blames_device in D as (s & y & -> & Y & B); [|exact K].
      assert (R : node_at root ([i] ++ s) = Some y) by (cbn; rewrite N; exact Y).
      rewrite R. intros H. assert (He : e' = e) by congruence. subst e'.
      assert (Hl : node_line pos ([i] ++ s) y :: parent_lines root (above (rev ([i] ++ s))) = lines) by congruence. subst lines. clear H.
      right. destruct (trail_lines root i x N s y Y) as (ns & T & M).
      exists i, x, s, ns, y, (node_line pos (i :: s) y), (parent_lines root (above (rev (i :: s)))).
      split; [exact N|]. split; [exact F|]. split; [exact T|]. split; [exact B|]. split; [reflexivity|].
      split; [apply introduces_line|exact M].
    - intros H. injection H as <- <-. left. split; [|auto]. apply get_child_none. now apply child_at_none in G.
  Qed.

  Lemma document_cases : match parse_document m cfg pos root with
    | Ok (inl d) => exists x, first_child "device" root x /\ device_parse m cfg x = Ok d
    | Ok (inr (e, _)) => (no_child "device" root /\ e = EMissingTag "device") \/
                         exists x, first_child "device" root x /\ device_parse m cfg x = Err e
    | Err _ => False
    | Panic p => exists x, first_child "device" root x /\ device_parse m cfg x = Panic p
    end.
  Proof.
    unfold parse_document. destruct (get_child_at "device" [] root) as [[w x]|] eqn:G.
    - destruct (device_child _ _ _ G) as (i & -> & N & F & K). assert (D := erase_device m cfg [i] x).
      destruct (device_at m cfg [i] x) as [d|e v|p] eqn:A; cbn in D.
      + now exists x.
      + destruct (blames_device _ _ _ _ K e v A) as (s & y & -> & Y & _).
        assert (R : node_at root ([i] ++ s) = Some y) by (cbn; rewrite N; exact Y). rewrite R. right. now exists x.
      + now exists x.
    - left. split; [|reflexivity]. apply get_child_none. now apply child_at_none in G.
  Qed.
  Lemma first_same a b : first_child "device" root a -> first_child "device" root b -> a = b.
  Proof. intros A B. apply get_child_first in A, B. congruence. Qed.
  Lemma no_first a : first_child "device" root a -> no_child "device" root -> False.
  Proof. intros A B. apply get_child_first in A. apply get_child_none in B. congruence. Qed.
  Lemma document_ok d : parse_document m cfg pos root = Ok (inl d) <->
    exists x, first_child "device" root x /\ device_parse m cfg x = Ok d.
  Proof.
    assert (H := document_cases). split.
    - intros E. rewrite E in H. exact H.
    - intros (x & F & D). destruct (parse_document m cfg pos root) as [[d'|[e l]]|e|p].
      + destruct H as (y & G & H). rewrite (first_same _ _ F G) in D. congruence.
      + destruct H as [[N _]|(y & G & H)]; [destruct (no_first _ F N)|]. rewrite (first_same _ _ F G) in D. congruence.
      + contradiction.
      + destruct H as (y & G & H). rewrite (first_same _ _ F G) in D. congruence.
  Qed.
  Lemma document_err e : (exists lines, parse_document m cfg pos root = Ok (inr (e, lines))) <->
    (no_child "device" root /\ e = EMissingTag "device") \/ exists x, first_child "device" root x /\ device_parse m cfg x = Err e.
  Proof.
    assert (H := document_cases). split.
    - intros [l E]. rewrite E in H. exact H.
    - intros Q. destruct (parse_document m cfg pos root) as [[d'|[e' l]]|e'|p].
      + destruct H as (y & G & H). destruct Q as [[N _]|(x & F & D)]; [destruct (no_first _ G N)|].
        rewrite (first_same _ _ F G) in D. congruence.
      + exists l. destruct H as [[N ->]|(y & G & H)], Q as [[N' ->]|(x & F & D)]; try reflexivity;
          try (exfalso; eapply no_first; eassumption). rewrite (first_same _ _ F G) in D. congruence.
      + contradiction.
      + destruct H as (y & G & H). destruct Q as [[N _]|(x & F & D)]; [destruct (no_first _ G N)|].
        rewrite (first_same _ _ F G) in D. congruence.
  Qed.
  Lemma document_panic p : parse_document m cfg pos root = Panic p <->
    exists x, first_child "device" root x /\ device_parse m cfg x = Panic p.
  Proof.
    assert (H := document_cases). split.
    - intros E. rewrite E in H. exact H.
    - intros (x & F & D). destruct (parse_document m cfg pos root) as [[d'|[e l]]|e|p'].
      + destruct H as (y & G & H). rewrite (first_same _ _ F G) in D. congruence.
      + destruct H as [[N _]|(y & G & H)]; [destruct (no_first _ F N)|]. rewrite (first_same _ _ F G) in D. congruence.
      + contradiction.
      + destruct H as (y & G & H). rewrite (first_same _ _ F G) in D. congruence.
  Qed.
End Report.

Lemma node_trail n s x : node_at n s = Some x -> exists path, trail n s (path ++ [x]).
Proof.
  revert n. induction s as [|i s IH]; intros n E.
  - injection E as <-. exists []. apply tr_here.
  - cbn in E. destruct (nth_error (children n) i) as [c|] eqn:C; [|discriminate]. destruct (IH c E) as [path T].
    destruct n as [t a l| |]; try (destruct i; discriminate). exists (Elem t a l :: path). now apply tr_down with c.
Qed.
Lemma blamed_trail m cfg w n e v : named "device" n -> device_at m cfg w n = LErr e v ->
  exists s path x, v = w ++ s /\ trail n s (path ++ [x]) /\ fault (pc_level cfg) e x.
Proof.
  intros N E. destruct (blames_device _ _ _ _ N e v E) as (s & x & -> & X & F). destruct (node_trail _ _ _ X) as [path T].
  now exists s, path, x.
Qed.
Lemma blamed_levels m cfg w n e v : named "device" n -> device_at m cfg w n = LErr e v ->
  (e = EIncompatibleUsages \/ (exists v, e = EEvValueAndDefault v) \/ e = EEmptyRegisters \/ e = EEmptyCluster \/ e = EEmptyFields \/
   (exists s k, e = EName s k) \/ (exists k, e = EUninitialized k) \/ (exists k s, e = EMaskTooLarge k s) \/
   (exists r k, e = EMaskConflict r k) -> pc_level cfg = Strict) /\
  (e = EZeroWidth \/ e = EEvAbsentValue \/ e = EEvsEmpty \/ e = EEmptyDevice \/ (exists a b c, e = EEvOutOfRange a b c) \/
   (exists a b, e = EWcReversedRange a b) \/ (exists a b c, e = EWcOutOfRange a b c) \/ (exists r s, e = EValueTooLarge r s) ->
   pc_level cfg <> Disabled) /\
  ~ (exists k s, e = ESelfDerived k s) /\ ~ (exists k s, e = ENotFound k s) /\ e <> EDeserialize.
Proof.
  intros N E. destruct (blames_device _ _ _ _ N e v E) as (s & x & _ & _ & F). clear - F.
  split; [|split; [|split; [|split]]].
  - intros H. decompose [or ex] H; subst; exact (proj1 F).
  - intros H. decompose [or ex] H; subst; apply proj1 in F; intros Q; rewrite Q in F; destruct F; discriminate.
  - intros (? & ? & ->). exact F.
  - intros (? & ? & ->). exact F.
  - intros ->. exact F.
Qed.
