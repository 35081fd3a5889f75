(** What is written is read back up to layout. *)
From Coq Require Import Permutation.
From Verif Require Import Base BaseFacts Xml XmlFacts SpecText SpecLayout ParseProofs SpecMarkup.

(** ** Escapes *)
Lemma unescape_skip e r : unescape (String.length e) (e ++ r) = unescape 0 r.
Proof. induction e as [|c e IH]; [destruct r; reflexivity|]. exact IH. Qed.
Lemma escape_found x r : In x escapes -> find_first (fun e => starts_with (snd e) (snd x ++ r)) escapes = Some x.
Proof. intros I. repeat (destruct I as [<-|I]; [reflexivity|]). destruct I. Qed.
Lemma unescape_one x r : In x escapes -> unescape 0 (String "&" (snd x ++ r)) = option_map (String (fst x)) (unescape 0 r).
Proof. intros I. cbn [unescape Ascii.eqb Bool.eqb]. now rewrite escape_found, unescape_skip. Qed.
Lemma find_first_in {A} (f : A -> bool) l x : find_first f l = Some x -> In x l /\ f x = true.
Proof. induction l as [|a l IH]; cbn; [discriminate|]. destruct (f a) eqn:E; [intros [= <-]; auto|]. intros H. destruct (IH H); auto. Qed.
Lemma find_first_no {A} (f : A -> bool) l x : find_first f l = None -> In x l -> f x = false.
Proof. induction l as [|a l IH]; cbn; [tauto|]. destruct (f a) eqn:E; [discriminate|]. intros H [<-|I]; auto. Qed.
Lemma unescape_escape t s : incl t escapes -> In ("&"%char, "amp;"%string) t -> unescape 0 (escape t s) = Some s.
Proof.
  intros I A. induction s as [|c s IH]; [reflexivity|]. cbn [escape].
  destruct (find_first _ t) as [x|] eqn:E.
  - apply find_first_in in E as [Ix E]. apply Ascii.eqb_eq in E. cbn [append]. rewrite unescape_one, IH by (now apply I). cbn. now rewrite E.
  - pose proof (find_first_no _ _ _ E A) as N. cbn [fst] in N. cbn [append unescape]. rewrite Ascii.eqb_sym, N, IH. reflexivity.
Qed.
Lemma escape_chars t p s : (forall x, In x t -> sforall p (snd x) = true) -> p "&"%char = true ->
  sforall (fun c => p c || existsb (fun x => Ascii.eqb (fst x) c) t) s = true -> sforall p (escape t s) = true.
Proof.
  intros T A. induction s as [|c s IH]; [reflexivity|]. cbn [escape sforall]. rewrite andb_true_iff. intros [H K].
  rewrite sforall_app, (IH K), andb_true_r. destruct (find_first _ t) as [x|] eqn:E.
  - apply find_first_in in E as [Ix E]. cbn [sforall]. rewrite A. now apply T.
  - cbn [sforall]. rewrite andb_true_r. apply orb_true_iff in H as [H|H]; [exact H|].
    apply existsb_exists in H as (x & Ix & X). pose proof (find_first_no _ _ _ E Ix). cbn in H. congruence.
Qed.

(** ** Pieces *)
Definition ends (p : ascii -> bool) (s : string) : Prop := match s with String c _ => p c = false | EmptyString => True end.
Lemma span_app p a b : sforall p a = true -> ends p b -> span p (a ++ b) = (a, b).
Proof.
  intros H E. induction a as [|c a IH]; cbn [append].
  - destruct b as [|c b]; [reflexivity|]. cbn in E |- *. now rewrite E.
  - cbn in H. apply andb_true_iff in H as [H K]. cbn [span]. rewrite H, (IH K). reflexivity.
Qed.
Lemma strip_app p r : strip_prefix p (p ++ r) = Some r.
Proof. now apply strip_prefix_spec. Qed.
Lemma spaces_id s : sforall (fun c => negb (is_space c) || Ascii.eqb c " ") s = true -> spaces s = s.
Proof.
  induction s as [|c s IH]; [reflexivity|]. cbn [sforall spaces]. rewrite andb_true_iff. intros [H K]. rewrite (IH K).
  destruct (is_space c); [|reflexivity]. cbn in H. apply Ascii.eqb_eq in H. now subst.
Qed.
Lemma all_ascii (p : ascii -> bool) : forallb (fun n => p (ascii_of_nat n)) (seq 0 256) = true -> forall c, p c = true.
Proof.
  intros H c. rewrite forallb_forall in H. rewrite <- (ascii_nat_embedding c). apply H. apply in_seq.
  pose proof (nat_ascii_bounded c). lia.
Qed.
Lemma ascii_impl (p q : ascii -> bool) : forallb (fun n => implb (p (ascii_of_nat n)) (q (ascii_of_nat n))) (seq 0 256) = true ->
  forall c, p c = true -> q c = true.
Proof. intros H c P. pose proof (all_ascii (fun c => implb (p c) (q c)) H c) as K. cbv beta in K. now rewrite P in K. Qed.
Lemma attr_escaped v : plain_attr v ->
  sforall (fun c => (negb (is_space c) || Ascii.eqb c " ") && negb (Ascii.eqb c quote)) (escape escapes v) = true.
Proof.
  intros P. apply escape_chars; [|reflexivity|].
  - intros x I. repeat (destruct I as [<-|I]; [reflexivity|]). destruct I.
  - unfold plain_attr in P. eapply sforall_impl; [|exact P]. apply ascii_impl. vm_compute. reflexivity.
Qed.
Lemma sforall_and p q s : sforall (fun c => p c && q c) s = true -> sforall p s = true /\ sforall q s = true.
Proof. intros H. split; (eapply sforall_impl; [|exact H]); cbn; intros c K; apply andb_true_iff in K; tauto. Qed.
Lemma text_escaped s : sforall (fun c => negb (Ascii.eqb c "<")) (escape escapes_text s) = true.
Proof.
  apply escape_chars; [|reflexivity|].
  - intros x I. repeat (destruct I as [<-|I]; [reflexivity|]). destruct I.
  - induction s as [|c s IH]; [reflexivity|]. cbn [sforall]. rewrite IH, andb_true_r. revert c. apply all_ascii. vm_compute. reflexivity.
Qed.
Definition attrs_ok (a : list (string * string)) : Prop :=
  NoDup (map fst a) /\ Forall (fun kv => is_xml_name (fst kv) = true /\ plain_attr (snd kv)) a.
Lemma name_parts t : is_xml_name t = true -> exists c t', t = String c t' /\ sforall name_char t = true /\
  name_char c = true /\ c <> "!"%char /\ c <> "?"%char.
Proof.
  unfold is_xml_name. rewrite !andb_true_iff, !negb_true_iff. intros [[[E N] A] B]. apply sforall_and in N as [N _]. destruct t as [|c t]; [discriminate|].
  exists c, t. pose proof N as N'. cbn in N'. apply andb_true_iff in N' as [Nc _]. conjs; try assumption; try reflexivity; intros ->; discriminate.
Qed.
Lemma space_not_name c : is_space c = true -> name_char c = false.
Proof. intros H. unfold name_char. now rewrite H, orb_true_r. Qed.
Lemma name_not_space c : name_char c = true -> is_space c = false.
Proof. intros H. destruct (is_space c) eqn:E; [|reflexivity]. apply space_not_name in E. congruence. Qed.
Definition closes (s : string) : Prop := match s with String c _ => c = ">"%char \/ c = "/"%char | EmptyString => False end.
Lemma closes_ends r : closes r -> ends is_space r /\ ends name_char r.
Proof. destruct r as [|c r]; [intros []|]. intros [->| ->]; split; reflexivity. Qed.
Lemma span_nothing p b : ends p b -> span p b = (EmptyString, b).
Proof. apply (span_app p EmptyString b). reflexivity. Qed.
Lemma read_written_attrs a : Forall (fun kv => is_xml_name (fst kv) = true /\ plain_attr (snd kv)) a -> forall fuel r, closes r ->
  (List.length a < fuel)%nat -> read_attrs fuel (write_attrs a ++ r) = Some (a, r).
Proof.
  intros F. induction F as [|[k v] a [N P] F IH]; intros fuel r C L; (destruct fuel as [|fuel]; [cbn in L; lia|]).
  - destruct (closes_ends r C) as [E1 E2]. cbn [write_attrs append read_attrs]. rewrite (span_nothing _ _ E1). cbn [snd]. now rewrite (span_nothing _ _ E2).
  - cbn [fst snd] in N, P. destruct (name_parts k N) as (c & k' & Ek & Nk & Nc & _).
    cbn [write_attrs read_attrs]. rewrite !sapp_assoc.
    assert (S1 : span is_space (" " ++ (k ++ ("=" ++ (quoted (escape escapes v) ++ (write_attrs a ++ r))))) =
                 (" "%string, (k ++ ("=" ++ (quoted (escape escapes v) ++ (write_attrs a ++ r))))%string)).
    { apply span_app; [reflexivity|]. rewrite Ek. cbn. now apply name_not_space. }
    rewrite S1. cbn [snd]. rewrite span_app by (exact Nk || reflexivity). cbn [fst snd].
    replace (str_empty k) with false by (now rewrite Ek).
    unfold quoted. change ("=" ++ (String quote (escape escapes v ++ String quote "") ++ (write_attrs a ++ r)))%string
      with (String "=" (String quote "") ++ ((escape escapes v ++ String quote "") ++ (write_attrs a ++ r)))%string.
    rewrite strip_app, sapp_assoc. destruct (sforall_and _ _ _ (attr_escaped v P)) as [A1 A2].
    rewrite (span_app _ (escape escapes v)) by (exact A2 || reflexivity). cbn [fst snd]. rewrite (spaces_id _ A1), unescape_escape by (firstorder || (intros ?; tauto)).
    rewrite strip_app, (IH fuel r C); [reflexivity|]. cbn in L. lia.
Qed.
Lemma attrs_length a : (List.length a <= String.length (write_attrs a))%nat.
Proof. induction a as [|[k v] a IH]; [cbn; lia|]. cbn [write_attrs List.length]. rewrite !sapp_length. cbn [String.length]. lia. Qed.

(** ** Trees *)
Inductive tidy : xml -> Prop :=
  | td_leaf t a s : is_xml_name t = true -> attrs_ok a -> tidy (Elem t a [Text s])
  | td_node t a l : is_xml_name t = true -> attrs_ok a -> structured t = true -> Forall tidy l -> tidy (Elem t a l).
Lemma tidy_element n : tidy n -> is_element n = true.
Proof. now intros []. Qed.
Definition written_as (n : xml) (w : string) (n' : xml) : Prop :=
  forall k rest, (String.length w <= S k)%nat -> read_nodes (S k) (w ++ rest) = then_ n' (read_nodes k rest).
(** The end of a start tag, contents and the end tag. *)
Lemma read_start t a k r1 : is_xml_name t = true -> attrs_ok a -> closes r1 ->
  read_nodes (S k) ("<" ++ (t ++ (write_attrs a ++ r1))) =
    match strip_prefix "/>" r1, strip_prefix ">" r1 with
    | Some r2, _ => then_ (Elem t a []) (read_nodes k r2)
    | None, Some r2 =>
        match read_nodes k r2 with
        | Some (l, r3) =>
            match strip_prefix ("</" ++ t ++ ">") r3 with
            | Some r4 => then_ (Elem t a l) (read_nodes k r4)
            | None => None
            end
        | None => None
        end
    | None, None => None
    end.
Proof.
  intros N [D A] C. destruct (name_parts t N) as (c & t' & Et & Nt & Nc & Nb & Nq).
  change ("<" ++ (t ++ (write_attrs a ++ r1)))%string with (String "<" (t ++ (write_attrs a ++ r1))). cbn [read_nodes Ascii.eqb Bool.eqb].
  assert (P : forall p q, p <> c -> strip_prefix (String p q) (t ++ (write_attrs a ++ r1)) = None).
  { intros p q H. rewrite Et. cbn [append strip_prefix]. destruct (Ascii.eqb_spec p c); congruence. }
  rewrite (P "/"%char) by (intros <-; discriminate). rewrite (P "!"%char) by congruence. rewrite (P "?"%char) by congruence.
  rewrite (span_app name_char t (write_attrs a ++ r1)) by (exact Nt || (destruct a as [|[k1 v1] a]; [exact (proj2 (closes_ends _ C))|reflexivity])). cbn [fst snd].
  rewrite (read_written_attrs a A _ r1 C); [reflexivity|]. rewrite !sapp_length. pose proof (attrs_length a). lia.
Qed.
Lemma read_text_run k s r : (exists c r', r = String c r' /\ c = "<"%char) -> s <> EmptyString ->
  read_nodes (S k) (escape escapes_text s ++ r) = then_ (Text s) (read_nodes k r).
Proof.
  intros (c & r' & -> & ->) Ns.
  assert (U : unescape 0 (escape escapes_text s) = Some s) by (apply unescape_escape; [apply incl_appl, incl_refl|now left]).
  pose proof (text_escaped s) as T. remember (escape escapes_text s) as w eqn:Ew.
  destruct w as [|x w]; [destruct s; [congruence|cbn in U; congruence]|].
  cbn [append read_nodes]. assert (X : Ascii.eqb x "<" = false) by (cbn in T; destruct (Ascii.eqb x "<"); [discriminate|reflexivity]).
  rewrite X. change (String x (w ++ String "<" r')) with (String x w ++ String "<" r')%string.
  rewrite span_app by (exact T || reflexivity). cbn [fst snd]. now rewrite U.
Qed.
Lemma indent_shape depth : exists w, indent depth = String lf w /\ sforall (Ascii.eqb " ") w = true.
Proof.
  induction depth as [|d (w & IH & S)]; [exists ""%string; auto|]. cbn [indent]. rewrite IH. exists (w ++ "  ")%string. split; [reflexivity|].
  rewrite sforall_app, S. reflexivity.
Qed.
Lemma indent_blank depth : escape escapes_text (indent depth) = indent depth /\ indent depth <> EmptyString.
Proof.
  destruct (indent_shape depth) as (w & -> & S). split; [|discriminate].
  assert (K : forall w, sforall (Ascii.eqb " ") w = true -> escape escapes_text w = w).
  { induction w0 as [|c w0 IH]; [reflexivity|]. cbn [sforall]. rewrite andb_true_iff. intros [E H]. apply Ascii.eqb_eq in E. subst c. cbn. now rewrite IH. }
  cbn. now rewrite K.
Qed.
Lemma read_indent depth k r : (exists c r', r = String c r' /\ c = "<"%char) ->
  read_nodes (S k) (indent depth ++ r) = then_ (Text (indent depth)) (read_nodes k r).
Proof. intros H. destruct (indent_blank depth) as [E N]. rewrite <- E at 1. now apply read_text_run. Qed.
Lemma write_starts depth n : is_element n = true -> exists w, write_node depth n = String "<" w.
Proof. destruct n as [t a [|x l]| |]; try discriminate; intros _; cbn [write_node append]; eauto. Qed.
Lemma read_close k r : read_nodes (S k) ("</" ++ r) = Some ([], ("</" ++ r)%string).
Proof. reflexivity. Qed.
(** Children that are elements, each after an indentation. *)
Lemma read_children depth l : Forall (fun n => is_element n = true /\ exists n', same_layout n n' /\ written_as n (write_node (S depth) n) n') l ->
  exists l', (forall t g, Forall2 same_layout (filter (in_group t g) l) (filter (in_group t g) l')) /\
  forall k rest, let w := (String.concat "" (map (fun c => indent (S depth) ++ write_node (S depth) c) l) ++ indent depth)%string in
    (String.length w < k)%nat -> read_nodes k (w ++ "</" ++ rest) = Some (l', ("</" ++ rest)%string).
Proof.
  intros F. induction F as [|n l (El & n' & Sn & Wn) F (l' & Sl & IH)].
  - exists [Text (indent depth)]. split; [constructor|]. cbv zeta. intros k rest L. cbn [map String.concat append] in *.
    destruct k as [|[|k]]; [lia|pose proof (indent_shape depth) as (w & E & _); rewrite E in L; cbn in L; lia|].
    rewrite read_indent by (eexists _, _; split; reflexivity). reflexivity.
  - exists (Text (indent (S depth)) :: n' :: l'). split.
    + intros t g. cbn [filter in_group]. destruct Sn as [t0 a a' c c' P D T G].
      cbn [in_group]. destruct (match group t t0 with Some h => String.eqb h g | None => false end).
      * constructor; [constructor; assumption|apply Sl].
      * apply Sl.
    + cbv zeta in *. intros k rest.
      assert (E : forall x y, String.concat "" (x :: y) = (x ++ String.concat "" y)%string).
      { intros x [|y0 y]; [cbn; now rewrite sapp_nil|reflexivity]. }
      cbn [map]. rewrite E, !sapp_assoc. rewrite !sapp_length. intros L.
      destruct (indent_shape (S depth)) as (w & Ew & _). pose proof Ew as Ew'. apply (f_equal String.length) in Ew'. cbn [String.length] in Ew'.
      destruct (write_starts (S depth) n El) as [v Ev]. pose proof Ev as Ev'. apply (f_equal String.length) in Ev'. cbn [String.length] in Ev'.
      destruct k as [|k]; [lia|]. rewrite read_indent by (rewrite Ev; eexists _, _; split; reflexivity).
      destruct k as [|k]; [lia|]. rewrite Wn by lia. rewrite <- sapp_assoc, IH; [reflexivity|].
      rewrite sapp_length. lia.
Qed.
Lemma read_body n t a w l' : is_xml_name t = true -> attrs_ok a ->
  (forall k rest, (String.length w < k)%nat -> read_nodes k (w ++ "</" ++ rest) = Some (l', ("</" ++ rest)%string)) ->
  written_as n ("<" ++ t ++ write_attrs a ++ ">" ++ w ++ "</" ++ t ++ ">")%string (Elem t a l').
Proof.
  intros N A B k rest L. rewrite !sapp_assoc. rewrite read_start by (assumption || (left; reflexivity)).
  assert (E1 : strip_prefix "/>" (">" ++ (w ++ ("</" ++ (t ++ (">" ++ rest))))) = None) by reflexivity.
  assert (E2 : strip_prefix ">" (">" ++ (w ++ ("</" ++ (t ++ (">" ++ rest))))) = Some (w ++ ("</" ++ (t ++ (">" ++ rest))))%string) by reflexivity.
  rewrite E1, E2, B; [|rewrite !sapp_length in L; cbn [String.length] in L; lia].
  replace ("</" ++ (t ++ (">" ++ rest)))%string with (("</" ++ t ++ ">") ++ rest)%string by (now rewrite !sapp_assoc).
  now rewrite strip_app.
Qed.
Lemma read_written n : tidy n -> forall depth, exists n', same_layout n n' /\ written_as n (write_node depth n) n'.
Proof.
  induction n as [t a l IH|s|] using xml_tree_ind; intros T depth; [|inversion T..].
  inversion T as [t0 a0 s N A|t0 a0 l0 N A St F]; subst.
  - change (write_node depth (Elem t a [Text s])) with ("<" ++ t ++ write_attrs a ++ ">" ++ escape escapes_text s ++ "</" ++ t ++ ">")%string.
    destruct (string_dec s "") as [->|Ns].
    + exists (Elem t a []). split.
      * constructor; [reflexivity|exact (proj1 A)|intros _; constructor|intros g; constructor].
      * apply read_body; [exact N|exact A|]. intros [|k] rest L; [lia|reflexivity].
    + exists (Elem t a [Text s]). split.
      * constructor; [reflexivity|exact (proj1 A)|intros _; constructor|intros g; constructor].
      * apply read_body; [exact N|exact A|]. intros k rest L.
        assert (L2 : (1 <= String.length (escape escapes_text s))%nat).
        { destruct s; [congruence|]. cbn [escape]. rewrite sapp_length. destruct (find_first _ _); cbn [String.length]; lia. }
        destruct k as [|[|k]]; [lia..|]. rewrite read_text_run by (exact Ns || (eexists _, _; split; reflexivity)). reflexivity.
  - destruct l as [|x l].
    + exists (Elem t a []). split.
      * constructor; [reflexivity|exact (proj1 A)|intros _; constructor|intros g; constructor].
      * cbn [write_node]. intros k rest L. rewrite !sapp_assoc. rewrite read_start by (assumption || (right; reflexivity)). reflexivity.
    + assert (W : write_node depth (Elem t a (x :: l)) = ("<" ++ t ++ write_attrs a ++ ">" ++
        (String.concat "" (map (fun c => indent (S depth) ++ write_node (S depth) c) (x :: l)) ++ indent depth) ++ "</" ++ t ++ ">")%string).
      { cbn [write_node]. replace (forallb is_element (x :: l)) with true; [reflexivity|]. symmetry. apply forallb_forall. intros y I.
        rewrite Forall_forall in F. exact (tidy_element _ (F _ I)). }
      destruct (read_children depth (x :: l)) as (l' & Sl & Rl).
      { rewrite Forall_forall in *. intros y I. split; [exact (tidy_element _ (F _ I))|]. exact (IH y I (F y I) (S depth)). }
      exists (Elem t a l'). split.
      * constructor; [reflexivity|exact (proj1 A)|congruence|intros g; apply Sl].
      * rewrite W. apply read_body; [exact N|exact A|]. exact Rl.
Qed.

(** ** Documents *)
Definition good (c : ascii) : bool := xml_char c && negb (Ascii.eqb c cr).
Lemma line_ends_good s : sforall good s = true -> line_ends s = s.
Proof.
  induction s as [|c s IH]; [reflexivity|]. cbn [sforall line_ends]. rewrite andb_true_iff. intros [G H]. apply andb_true_iff in G as [_ G].
  apply negb_true_iff in G. now rewrite G, IH.
Qed.
Lemma good_name t : is_xml_name t = true -> sforall good t = true.
Proof.
  unfold is_xml_name. rewrite !andb_true_iff. intros [[[_ N] _] _]. eapply sforall_impl; [|exact N]. apply ascii_impl. vm_compute. reflexivity.
Qed.
Lemma good_attrs a : Forall (fun kv => is_xml_name (fst kv) = true /\ plain_attr (snd kv)) a -> sforall good (write_attrs a) = true.
Proof.
  intros F. induction F as [|[k v] a [N P] F IH]; [reflexivity|]. cbn [write_attrs]. unfold quoted. cbn [fst snd] in *.
  rewrite !sforall_app, (good_name _ N), IH. cbn [sforall]. rewrite sforall_app.
  replace (sforall good (escape escapes v)) with true; [reflexivity|]. symmetry. apply escape_chars; [|reflexivity|].
  - intros x I. repeat (destruct I as [<-|I]; [reflexivity|]). destruct I.
  - eapply sforall_impl; [|exact P]. apply ascii_impl. vm_compute. reflexivity.
Qed.
Lemma good_text s : plain_text s -> sforall good (escape escapes_text s) = true.
Proof.
  intros P. apply escape_chars; [|reflexivity|].
  - intros x I. repeat (destruct I as [<-|I]; [reflexivity|]). destruct I.
  - eapply sforall_impl; [|exact P]. apply ascii_impl. vm_compute. reflexivity.
Qed.
Lemma good_indent depth : sforall good (indent depth) = true.
Proof. induction depth as [|k IH]; [reflexivity|]. cbn [indent]. now rewrite sforall_app, IH. Qed.
Lemma good_concat l : Forall (fun s => sforall good s = true) l -> sforall good (String.concat "" l) = true.
Proof. intros F. induction F as [|x [|y l] H F IH]; [reflexivity|cbn; now rewrite H|]. cbn [String.concat] in *. rewrite !sforall_app, H. cbn. exact IH. Qed.
Lemma good_written n : tidy n -> plain_tree n -> forall depth, sforall good (write_node depth n) = true.
Proof.
  induction n as [t a l IH|s|] using xml_tree_ind; intros T P depth; [|inversion T..].
  inversion T as [t0 a0 s N A|t0 a0 l0 N A St F]; subst.
  - change (write_node depth (Elem t a [Text s])) with ("<" ++ t ++ write_attrs a ++ ">" ++ escape escapes_text s ++ "</" ++ t ++ ">")%string.
    rewrite !sforall_app, (good_name _ N), (good_attrs _ (proj2 A)), good_text; [reflexivity|]. apply (proj1 P). econstructor; [now left|constructor].
  - destruct l as [|x l].
    + cbn [write_node]. now rewrite !sforall_app, (good_name _ N), (good_attrs _ (proj2 A)).
    + cbn [write_node]. replace (forallb is_element (x :: l)) with true.
      2:{ symmetry. apply forallb_forall. intros y I. rewrite Forall_forall in F. exact (tidy_element _ (F _ I)). }
      rewrite !sforall_app, (good_name _ N), (good_attrs _ (proj2 A)), good_indent, good_concat; [reflexivity|].
      rewrite Forall_forall in *. intros w Iw. apply in_map_iff in Iw as (y & <- & I). rewrite sforall_app, good_indent. apply IH; [exact I|exact (F _ I)|].
      split; intros z Z; [apply (proj1 P); eapply ti_below; eauto|apply (proj2 P); eapply vi_below; eauto].
Qed.
Lemma after_declaration x : strip_prefix "<?xml " (declaration ++ x) <> None /\
  forall r, strip_prefix "<?xml " (declaration ++ x) = Some r -> after "?>" r = Some x.
Proof. split; [discriminate|]. intros r. cbn. intros [= <-]. reflexivity. Qed.
Lemma text_read n : tidy n -> plain_tree n -> exists n', read_text (write_text n) = Ok (Elem "" [] [n']) /\ same_layout n n'.
Proof.
  intros T P. destruct (read_written n T 0%nat) as (n' & S & W). exists n'. split; [|exact S].
  assert (G : sforall good (write_text n) = true).
  { unfold write_text. now rewrite !sforall_app, good_written. }
  unfold read_text. rewrite (line_ends_good _ G). destruct (sforall_and _ _ _ G) as [G' _]. rewrite G'. cbv zeta.
  unfold write_text. destruct (after_declaration (indent 0 ++ write_node 0 n)) as [D1 D2].
  destruct (strip_prefix "<?xml " _) as [r|]; [|congruence]. rewrite (D2 r eq_refl). cbn [opt_default].
  destruct (write_starts 0 n (tidy_element _ T)) as [w Ew].
  rewrite read_indent by (rewrite Ew; eexists _, _; split; reflexivity).
  rewrite <- (sapp_nil (write_node 0 n)). cbn [indent append String.length].
  rewrite W by (rewrite sapp_length; lia).
  rewrite Ew. cbn [append String.length read_nodes then_ option_map fst snd].
  inversion S; subst. reflexivity.
Qed.
