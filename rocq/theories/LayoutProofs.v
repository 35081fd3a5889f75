(** Parsing depends only on what layout-equal documents share. *)
From Coq Require Import Permutation.
From Verif Require Import BaseFacts Num Types Names Validate Builders Arrays Xml Parse SpecNum
  SpecText TrimProofs SpecXml XmlFacts SpecLayout SpecParse ParseProofs.

Lemma bind_ext {A B} (r r' : res A) (f f' : A -> res B) : r = r' -> (forall a, f a = f' a) -> bind r f = bind r' f'.
Proof. intros -> H. destruct r'; cbn; auto. Qed.
Lemma rmap_ext {A B} (f : A -> B) r r' : r = r' -> rmap f r = rmap f r'.
Proof. now intros ->. Qed.

Lemma find_perm {A} (k : string) (a a' : list (string * A)) : Permutation a a' -> NoDup (map fst a) ->
  find_first (fun kv => seqb (fst kv) k) a = find_first (fun kv => seqb (fst kv) k) a'.
Proof.
  induction 1 as [|x a a' P IH|x y a|a b c P1 IH1 P2 IH2]; intros D.
  - reflexivity.
  - cbn. inversion D; subst. destruct (seqb (fst x) k); auto.
  - cbn. inversion D as [|z l N D']; subst. destruct (seqb (fst x) k) eqn:X, (seqb (fst y) k) eqn:Y; auto.
    apply seqb_eq in X, Y. exfalso. apply N. cbn. left. congruence.
  - rewrite IH1 by exact D. apply IH2. eapply Permutation_NoDup; [apply Permutation_map; exact P1|exact D].
Qed.
Lemma text_leading t a l : text (Elem t a l) = match leading l with Some s => if str_empty s then None else Some s | None => None end.
Proof. destruct l as [|[| |] l]; reflexivity. Qed.
Section Same.
  Variables n n' : xml.
  Hypothesis S : same_layout n n'.
  Lemma same_elem : is_element n = true /\ is_element n' = true.
  Proof. destruct S; auto. Qed.
  Lemma same_tag : tag n = tag n'.
  Proof. now destruct S. Qed.
  Lemma same_has_tag t : has_tag t n = has_tag t n'.
  Proof. now destruct S. Qed.
  Lemma same_attr k : attr k n = attr k n'.
  Proof. destruct S as [t a a' l l' P D T G]. unfold attr. f_equal. now apply find_perm. Qed.
  Lemma same_expect t : expect_tag t n = expect_tag t n'.
  Proof. unfold expect_tag. now rewrite same_has_tag. Qed.
  Lemma same_text_bits : structured (tag n) = false -> tag n = "bitRange"%string -> text n = text n'.
  Proof.
    destruct S as [t a a' l l' P D T G]. cbn [tag]. intros U ->. specialize (T U). rewrite !text_leading.
    destruct T; [reflexivity..|congruence].
  Qed.
  Lemma same_get_text : structured (tag n) = false -> get_text n = get_text n'.
  Proof.
    destruct S as [t a a' l l' P D T G]. cbn [tag]. intros U. specialize (T U). unfold get_text. rewrite !text_leading. cbn [tag].
    destruct T as [o| | |s s' r B N N' R R']; [reflexivity..|].
    destruct s; [congruence|]. destruct s'; [congruence|]. cbn [str_empty].
    apply trim_spec in R, R'. congruence.
  Qed.
  Lemma same_num b : structured (tag n) = false -> num_parse b n = num_parse b n'.
  Proof. intros U. unfold num_parse. now rewrite same_get_text. Qed.
  Lemma same_bool : structured (tag n) = false -> bool_parse n = bool_parse n'.
  Proof. intros U. unfold bool_parse. now rewrite same_get_text. Qed.
  Lemma same_enum {A} (f : string -> option A) e : structured (tag n) = false -> enum_parse f e n = enum_parse f e n'.
  Proof. intros U. unfold enum_parse. now rewrite same_get_text. Qed.
  Lemma same_group g : Forall2 same_layout (filter (in_group (tag n) g) (children n)) (filter (in_group (tag n) g) (children n')).
  Proof. destruct S as [t a a' l l' P D T G]. apply G. Qed.
End Same.

Lemma find_filter {A} (f : A -> bool) l : find_first f l = match filter f l with a :: _ => Some a | [] => None end.
Proof. induction l as [|x l IH]; [reflexivity|]. cbn. destruct (f x); auto. Qed.
Lemma filter_ext' {A} (f g : A -> bool) l : (forall a, f a = g a) -> filter f l = filter g l.
Proof. intros H. induction l as [|x l IH]; [reflexivity|]. cbn. rewrite H, IH. reflexivity. Qed.

(** Tag [k] has a group of its own among the children of [t]. *)
Definition alone (t k : string) : Prop := forall u, group t u = Some k <-> u = k.
Lemma alone_group t k n : alone t k -> in_group t k n = has_tag k n.
Proof.
  intros H. destruct n as [u a l| |]; [|reflexivity..]. cbn. specialize (H u). destruct (group t u) as [h|] eqn:E.
  - destruct (seqb u k) eqn:K.
    + apply seqb_eq in K. destruct H as [_ H]. specialize (H K). injection H as ->. apply String.eqb_refl.
    + destruct (String.eqb_spec h k); [|reflexivity]. subst. destruct H as [H _]. rewrite H in K by reflexivity.
      unfold seqb in K. rewrite String.eqb_refl in K. discriminate.
  - destruct (seqb u k) eqn:K; [|reflexivity]. apply seqb_eq in K. destruct H as [_ H]. now apply H in K.
Qed.
Definition same_opt (o o' : option xml) : Prop :=
  match o, o' with None, None => True | Some c, Some c' => same_layout c c' | _, _ => False end.
Lemma same_child n n' k : same_layout n n' -> alone (tag n) k -> same_opt (get_child k n) (get_child k n').
Proof.
  intros S A. unfold get_child. rewrite !find_filter. pose proof (same_group n n' S k) as G.
  rewrite !(filter_ext' (in_group (tag n) k) (has_tag k)) in G by (intros; now apply alone_group).
  destruct G; cbn; auto.
Qed.
Lemma get_child_tag k n c : get_child k n = Some c -> tag c = k.
Proof. intros H. apply find_first_some in H as (l1 & l2 & E & T & _). destruct c; cbn in *; [|discriminate..]. now apply seqb_eq in T. Qed.

Lemma same_optional {A} (f : xml -> res A) n n' k : same_layout n n' -> alone (tag n) k ->
  (forall c c', tag c = k -> same_layout c c' -> f c = f c') -> optional f k n = optional f k n'.
Proof.
  intros S L H. unfold optional. pose proof (same_child _ _ _ S L) as C.
  destruct (get_child k n) as [c|] eqn:E, (get_child k n') as [c'|]; cbn in *; try tauto.
  apply rmap_ext. apply H; [now apply (get_child_tag k n)|exact C].
Qed.
Lemma same_elem_bind {A} (f : xml -> res A) n n' k : same_layout n n' -> alone (tag n) k ->
  (forall c c', tag c = k -> same_layout c c' -> f c = f c') -> bind (get_child_elem k n) f = bind (get_child_elem k n') f.
Proof.
  intros S L H. unfold get_child_elem. pose proof (same_child _ _ _ S L) as C.
  destruct (get_child k n) as [c|] eqn:E, (get_child k n') as [c'|]; cbn in *; try tauto.
  apply H; [now apply (get_child_tag k n)|exact C].
Qed.
Lemma same_text_opt n n' k : same_layout n n' -> alone (tag n) k -> structured k = false ->
  get_child_text_opt k n = get_child_text_opt k n'.
Proof.
  intros S L U. unfold get_child_text_opt. pose proof (same_child _ _ _ S L) as C.
  destruct (get_child k n) as [c|] eqn:E, (get_child k n') as [c'|]; cbn in *; try tauto.
  rewrite (same_get_text c c' C); [reflexivity|]. now rewrite (get_child_tag k n c).
Qed.
Lemma same_text_req n n' k : same_layout n n' -> alone (tag n) k -> structured k = false ->
  get_child_text k n = get_child_text k n'.
Proof. intros. unfold get_child_text. erewrite same_text_opt; eauto. Qed.
Lemma same_u32 n n' k : same_layout n n' -> alone (tag n) k -> structured k = false -> get_child_u32 k n = get_child_u32 k n'.
Proof. intros. apply same_elem_bind; auto. intros c c' <- S. now apply same_num. Qed.
Lemma same_u64 n n' k : same_layout n n' -> alone (tag n) k -> structured k = false -> get_child_u64 k n = get_child_u64 k n'.
Proof. intros. apply same_elem_bind; auto. intros c c' <- S. now apply same_num. Qed.
Lemma same_child_bool n n' k : same_layout n n' -> alone (tag n) k -> structured k = false -> get_child_bool k n = get_child_bool k n'.
Proof. intros. apply same_elem_bind; auto. intros c c' <- S. now apply same_bool. Qed.
Lemma same_opt_num b n n' k : same_layout n n' -> alone (tag n) k -> structured k = false ->
  optional (num_parse b) k n = optional (num_parse b) k n'.
Proof. intros. apply same_optional; auto. intros c c' <- S. now apply same_num. Qed.
Lemma same_opt_bool n n' k : same_layout n n' -> alone (tag n) k -> structured k = false ->
  optional bool_parse k n = optional bool_parse k n'.
Proof. intros. apply same_optional; auto. intros c c' <- S. now apply same_bool. Qed.
Lemma same_opt_enum {A} (f : string -> option A) e n n' k : same_layout n n' -> alone (tag n) k -> structured k = false ->
  optional (enum_parse f e) k n = optional (enum_parse f e) k n'.
Proof. intros. apply same_optional; auto. intros c c' <- S. now apply same_enum. Qed.

Lemma collect_filter {A} p (f : xml -> res A) l : collect p f l = mapM f (filter p l).
Proof. induction l as [|x l IH]; [reflexivity|]. cbn. destruct (p x); cbn; rewrite IH; reflexivity. Qed.
Lemma same_collect {A} p q (f : xml -> res A) l l' :
  Forall2 same_layout (filter q l) (filter q l') -> (forall n, p n = q n) ->
  (forall c c', In c l -> q c = true -> same_layout c c' -> f c = f c') ->
  collect p f l = collect p f l'.
Proof.
  intros G E H. rewrite !collect_filter. rewrite !(filter_ext' p q) by auto.
  assert (K : forall c, In c (filter q l) -> forall c', same_layout c c' -> f c = f c').
  { intros c I c'. apply filter_In in I as [I Q]. auto. }
  clear H E. induction G as [|c c' k k' S G IH]; [reflexivity|]. cbn. rewrite (K c) with (c' := c') by (cbn; auto).
  rewrite IH by (intros; apply K; cbn; auto). reflexivity.
Qed.

Definition alone_in_schema (t k : string) : bool :=
  match lookup t lists, lookup t schema with
  | None, Some tags => one_of tags k && negb (seqb k "cluster") && (negb (seqb k "register") || negb (one_of tags "cluster"))
  | Some (apart, seen), _ => one_of apart k && one_of seen k && negb (seqb k "")
  | _, _ => false
  end.
Lemma alone_check t k : alone_in_schema t k = true -> alone t k.
Proof.
  unfold alone_in_schema, alone, group. intros H u. destruct (lookup t lists) as [[apart seen]|].
  - apply andb_true_iff in H as [H N]. apply andb_true_iff in H as [A B]. apply negb_true_iff, seqb_neq in N.
    destruct (one_of apart u) eqn:P; [destruct (one_of seen u) eqn:Q|]; split; try congruence.
  - destruct (lookup t schema) as [tags|]; [|discriminate]. apply andb_true_iff in H as [H N].
    apply andb_true_iff in H as [A B]. apply negb_true_iff, seqb_neq in B.
    destruct (one_of tags u) eqn:P; [|split; congruence]. destruct (String.eqb_spec u "cluster") as [->|C]; [|split; congruence].
    split; [|congruence]. intros E. injection E as <-. rewrite P in N. discriminate.
Qed.
(** Solve [alone (tag n) k] and [structured k = false] for known tags. *)
Ltac al := solve
  [ reflexivity | assumption
  | match goal with
    | H : tag ?n = _ |- alone (tag ?n) _ => rewrite H; apply alone_check; reflexivity
    end ].
Ltac same1 := first
  [ apply same_expect; assumption | apply same_text_opt; al | apply same_text_req; al | apply same_u32; al | apply same_u64; al
  | apply same_child_bool; al | apply same_opt_num; al | apply same_opt_bool; al | apply same_opt_enum; al ].
Ltac sames := repeat (apply bind_ext; [solve [same1]|intros ?]).

Definition listed (t : string) : bool := is_some (lookup t lists).
Lemma same_rp cfg n n' : same_layout n n' -> Forall (alone (tag n)) property_tags -> rp_parse cfg n = rp_parse cfg n'.
Proof.
  intros S A. unfold rp_parse. unfold property_tags in A.
  repeat match goal with H : Forall _ (_ :: _) |- _ => inversion_clear H end.
  sames. reflexivity.
Qed.
Lemma has_tag_tag t n : has_tag t n = true -> tag n = t.
Proof. destruct n; cbn; [|discriminate..]. now rewrite seqb_eq. Qed.
Lemma expect_bind {A} t n n' (f g : unit -> res A) : same_layout n n' -> (tag n = t -> f tt = g tt) ->
  bind (expect_tag t n) f = bind (expect_tag t n') g.
Proof.
  intros S H. rewrite <- (same_expect _ _ S t). unfold expect_tag. destruct (has_tag t n) eqn:E; cbn; [|reflexivity].
  apply H. now apply has_tag_tag.
Qed.
Lemma same_ev cfg n n' : same_layout n n' -> ev_parse cfg n = ev_parse cfg n'.
Proof.
  intros S. unfold ev_parse. apply expect_bind; [exact S|]. intros T. sames.
  apply bind_ext; [f_equal; same1|]. intros o. reflexivity.
Qed.
Lemma same_ev_item cfg n n' : same_layout n n' -> ev_item cfg n = ev_item cfg n'.
Proof. intros S. unfold ev_item. rewrite <- (same_has_tag _ _ S). destruct (has_tag _ n); [now apply same_ev|reflexivity]. Qed.
Lemma same_dai cfg n n' : tag n = "dimArrayIndex"%string -> same_layout n n' -> dai_parse cfg n = dai_parse cfg n'.
Proof.
  intros T S. unfold dai_parse. sames. apply bind_ext; [|intros; reflexivity].
  pose proof (same_group _ _ S "") as G. rewrite T in G.
  eapply same_collect; [exact G| |intros; now apply same_ev_item].
  intros [t at_ l| |]; [|reflexivity..]. cbn. unfold seqb. destruct (String.eqb t "headerEnumName") eqn:E; cbn.
  - destruct t; [discriminate|reflexivity].
  - reflexivity.
Qed.
Lemma same_evs cfg n n' : same_layout n n' -> evs_parse cfg n = evs_parse cfg n'.
Proof.
  intros S. unfold evs_parse. apply expect_bind; [exact S|]. intros T. sames.
  apply bind_ext; [|intros v; now rewrite (same_attr _ _ S)].
  pose proof (same_group _ _ S "") as G. rewrite T in G.
  eapply same_collect; [exact G| |intros; now apply same_ev_item].
  intros [t at_ l| |]; [|reflexivity..]. unfold evs_item, in_group, group, seqb, one_of.
  change (lookup "enumeratedValues" lists) with (Some (["name"; "usage"; "headerEnumName"], ["name"; "usage"])%string).
  cbn [is_element tag existsb andb].
  destruct (String.eqb_spec t "name") as [->|]; [reflexivity|].
  destruct (String.eqb_spec t "usage") as [->|]; [reflexivity|].
  destruct (String.eqb_spec t "headerEnumName") as [->|]; reflexivity.
Qed.
Lemma same_de cfg n n' : same_layout n n' -> Forall (alone (tag n)) dim_tags -> de_parse cfg n = de_parse cfg n'.
Proof.
  intros S A. unfold de_parse. unfold dim_tags in A.
  repeat match goal with H : Forall _ (_ :: _) |- _ => inversion_clear H end.
  change dim_index_parse with (enum_parse parse_indexes (fun _ => EDimIndexParse)).
  sames. apply bind_ext; [|reflexivity]. apply same_optional; [exact S|al|]. intros c c' T C. now apply same_dai.
Qed.
Lemma same_array {A} cfg t (name : A -> string) f n n' : same_layout n n' -> Forall (alone t) dim_tags ->
  (tag n = t -> f n = f n') -> parse_array cfg t name f n = parse_array cfg t name f n'.
Proof.
  intros S D F. unfold parse_array. apply expect_bind; [exact S|]. intros T. apply bind_ext; [now apply F|intros i].
  assert (E : is_some (get_child "dimIncrement" n) = is_some (get_child "dimIncrement" n')).
  { assert (A' : alone (tag n) "dimIncrement") by (rewrite T; inversion D as [|x l _ D2]; now inversion D2).
    pose proof (same_child _ _ _ S A') as C. destruct (get_child _ n), (get_child _ n'); cbn in *; tauto. }
  rewrite <- E. destruct (is_some _); [|reflexivity]. apply bind_ext; [|reflexivity].
  apply same_de; [exact S|]. now rewrite T.
Qed.

Lemma filter_single_tag n c : filter is_element (children n) = [c] -> get_child (tag c) n = Some c.
Proof.
  unfold get_child. rewrite find_filter. intros F.
  assert (filter (has_tag (tag c)) (children n) = [c]) as ->; [|reflexivity].
  rewrite (filter_ext' (has_tag (tag c)) (fun x => is_element x && has_tag (tag c) x)).
  - assert (E : is_element c = true) by (assert (In c (filter is_element (children n))) as I by (rewrite F; cbn; auto); apply filter_In in I; tauto).
    assert (G : forall l, filter (fun x => is_element x && has_tag (tag c) x) l = filter (has_tag (tag c)) (filter is_element l)).
    { induction l as [|x l IH]; [reflexivity|]. cbn. destruct (is_element x); cbn; [|exact IH]. destruct (has_tag (tag c) x); now rewrite IH. }
    rewrite G, F. destruct c; [|discriminate..]. cbn. now rewrite seqb_refl.
  - intros x. destruct x; reflexivity.
Qed.
Lemma same_wc n n' : tag n = "writeConstraint"%string -> same_layout n n' -> wc_parse n = wc_parse n'.
Proof.
  intros T S. unfold wc_parse. pose proof (same_group _ _ S "") as G. rewrite T in G.
  assert (W : forall x, in_group "writeConstraint" "" x = is_element x) by (intros []; reflexivity).
  rewrite (filter_ext' _ _ (children n) W), (filter_ext' _ _ (children n') W) in G.
  destruct (filter is_element (children n)) as [|c k] eqn:F; inversion G as [|c1 c' k1 k' C G' E1 E2]; subst; [reflexivity|].
  symmetry in E2. destruct G'; [|reflexivity].
  unfold get_child_bool, get_child_elem. rewrite (filter_single_tag n c F), (filter_single_tag n' c' E2), <- (same_tag _ _ C). cbn [ok_or bind].
  repeat match goal with |- context [seqb (tag c) ?k] => destruct (seqb (tag c) k) eqn:? end; try reflexivity.
  - apply rmap_ext, same_bool; auto. apply seqb_eq in Heqb as ->. reflexivity.
  - apply rmap_ext, same_bool; auto. apply seqb_eq in Heqb0 as ->. reflexivity.
  - unfold wc_range_parse. apply seqb_eq in Heqb1. sames. reflexivity.
Qed.
Lemma same_br m n n' : tag n = "field"%string -> same_layout n n' -> bit_range_parse m n = bit_range_parse m n'.
Proof.
  intros T S. unfold bit_range_parse.
  assert (B : forall k, In k ["bitRange"; "lsb"; "msb"; "bitOffset"; "bitWidth"]%string -> same_opt (get_child k n) (get_child k n')).
  { intros k I. apply same_child; [exact S|]. cbn in I. rewrite T. apply alone_check.
    repeat (destruct I as [<-|I]; [reflexivity|]). destruct I. }
  assert (B1 := B "bitRange"%string). assert (B2 := B "lsb"%string). assert (B3 := B "msb"%string).
  assert (B4 := B "bitOffset"%string). assert (B5 := B "bitWidth"%string). clear B. cbn in B1, B2, B3, B4, B5.
  destruct (get_child "bitRange" n) as [r|] eqn:E1, (get_child "bitRange" n') as [r'|]; cbn in B1; try tauto.
  { apply get_child_tag in E1. rewrite (same_text_bits r r'); [reflexivity|tauto|now rewrite E1|exact E1]. }
  destruct (get_child "lsb" n) as [x|] eqn:E2, (get_child "lsb" n') as [x'|]; cbn in B2; try tauto;
  destruct (get_child "msb" n) as [y|] eqn:E3, (get_child "msb" n') as [y'|]; cbn in B3; try tauto;
  destruct (get_child "bitOffset" n) as [z|] eqn:E4, (get_child "bitOffset" n') as [z'|]; cbn in B4; try tauto;
  destruct (get_child "bitWidth" n) as [w|] eqn:E5, (get_child "bitWidth" n') as [w'|]; cbn in B5; try tauto; try reflexivity;
  try (rewrite (same_num x x'), (same_num y y'); [reflexivity|..]; (tauto || (apply get_child_tag in E2, E3; first [now rewrite E3|now rewrite E2])));
  try (rewrite (same_num z z'), (same_num w w'); [reflexivity|..]; (tauto || (apply get_child_tag in E4, E5; first [now rewrite E4|now rewrite E5]))).
Qed.
Ltac alones := repeat (apply Forall_cons; [apply alone_check; reflexivity|]); apply Forall_nil.
Lemma same_field m cfg n n' : same_layout n n' -> field_parse m cfg n = field_parse m cfg n'.
Proof.
  intros S. unfold field_parse. apply same_array; [exact S|alones|]. intros T. unfold field_info_parse.
  sames. apply bind_ext; [now apply same_br|intros b]. sames.
  apply bind_ext; [|intros wc].
  { destruct (negb _); [|reflexivity]. apply same_optional; [exact S|al|]. intros c c' Tc C. now apply same_wc. }
  sames. apply bind_ext; [|intros; now rewrite (same_attr _ _ S)].
  destruct (negb _); [|reflexivity]. pose proof (same_group _ _ S "enumeratedValues") as G.
  eapply same_collect; [exact G| |intros; now apply same_evs]. intros x. symmetry. apply alone_group. al.
Qed.
Lemma same_list_collect {A} (f : xml -> res A) n n' : In (tag n) ["peripherals"; "registers"; "fields"]%string -> same_layout n n' ->
  (forall c c', In c (children n) -> same_layout c c' -> f c = f c') ->
  collect is_element f (children n) = collect is_element f (children n').
Proof.
  intros T S H. pose proof (same_group _ _ S "") as G. eapply same_collect; [exact G| |].
  - intros x. cbn in T. repeat (destruct T as [<-|T]; [destruct x; reflexivity|]). destruct T.
  - intros; now apply H.
Qed.
Lemma same_register m cfg n n' : same_layout n n' -> register_parse m cfg n = register_parse m cfg n'.
Proof.
  intros S. unfold register_parse. apply same_array; [exact S|alones|]. intros T. unfold register_info_parse.
  sames. apply bind_ext; [apply same_rp; [exact S|rewrite T; alones]|intros]. sames.
  apply bind_ext; [|intros wc].
  { apply same_optional; [exact S|al|]. intros c c' Tc C. now apply same_wc. }
  sames. apply bind_ext; [|intros; now rewrite (same_attr _ _ S)].
  apply (same_optional (fun fs => collect is_element (field_parse m cfg) (children fs))); [exact S|al|].
  intros c c' Tc C. apply same_list_collect; [rewrite Tc; cbn; auto|exact C|]. intros; now apply same_field.
Qed.
Lemma same_rc m cfg n : forall n', same_layout n n' -> rc_parse m cfg n = rc_parse m cfg n'.
Proof.
  induction n as [t a l IH|s|] using xml_tree_ind; intros n' S; [|inversion S..].
  pose proof (same_tag _ _ S) as T. inversion S as [t' a1 a' l1 l' P D TX G]; subst. cbn [tag] in T. cbn [rc_parse tag].
  destruct (seqb t "register") eqn:R; [now rewrite (same_register m cfg _ _ S)|].
  destruct (seqb t "cluster") eqn:C; [|reflexivity]. apply seqb_eq in C as ->. apply rmap_ext.
  assert (K : collect is_rc (rc_parse m cfg) l = collect is_rc (rc_parse m cfg) l').
  { eapply same_collect; [exact (G "register"%string)| |].
    - intros [t b k| |]; [|reflexivity..]. unfold is_rc, has_tag, in_group, group, seqb.
      change (lookup "cluster" lists) with (@None (list string * list string)). cbv beta iota.
      destruct (lookup "cluster" schema) as [tags|] eqn:L; [|discriminate].
      assert (Lr : one_of tags "register" = true /\ one_of tags "cluster" = true) by (revert L; vm_compute; intros L; injection L as <-; auto).
      destruct Lr as [Lr Lc].
      destruct (String.eqb_spec t "register") as [->|N1]; [now rewrite Lr|].
      destruct (String.eqb_spec t "cluster") as [->|N2]; [now rewrite Lc|]. cbn [orb].
      destruct (one_of tags t); [|reflexivity]. destruct (String.eqb_spec t "register"); congruence.
    - rewrite Forall_forall in IH. intros; now apply IH. }
  rewrite K. apply same_array; [exact S|alones|]. intros T'. unfold cluster_info_parse. sames.
  apply bind_ext; [apply same_rp; [exact S|rewrite T'; alones]|intros]. apply bind_ext; [reflexivity|intros].
  now rewrite (same_attr _ _ S).
Qed.
Lemma same_elem_bind2 {A B} (f : xml -> res A) (g g' : A -> res B) n n' k : same_layout n n' -> alone (tag n) k ->
  (forall c c', tag c = k -> same_layout c c' -> f c = f c') -> (forall a, g a = g' a) ->
  bind (get_child_elem k n) (fun c => bind (f c) g) = bind (get_child_elem k n') (fun c => bind (f c) g').
Proof.
  intros S L H K. unfold get_child_elem. pose proof (same_child _ _ _ S L) as C.
  destruct (get_child k n) as [c|] eqn:E, (get_child k n') as [c'|]; cbn in *; try tauto.
  apply bind_ext; [|exact K]. apply H; [now apply (get_child_tag k n)|exact C].
Qed.
Lemma same_ab cfg n n' : tag n = "addressBlock"%string -> same_layout n n' -> ab_parse cfg n = ab_parse cfg n'.
Proof.
  intros T S. unfold ab_parse. sames. apply same_elem_bind2; [exact S|al| |].
  - intros c c' Tc C. apply same_enum; [exact C|]. now rewrite Tc.
  - intros u. sames. reflexivity.
Qed.
Lemma same_it cfg n n' : same_layout n n' -> it_parse cfg n = it_parse cfg n'.
Proof. intros S. unfold it_parse. apply expect_bind; [exact S|]. intros T. sames. reflexivity. Qed.
Lemma same_cpu cfg n n' : same_layout n n' -> cpu_parse cfg n = cpu_parse cfg n'.
Proof.
  intros S. unfold cpu_parse. apply expect_bind; [exact S|]. intros T. sames. apply same_elem_bind2; [exact S|al| |].
  - intros c c' Tc C. apply same_enum; [exact C|]. now rewrite Tc.
  - intros u. sames. reflexivity.
Qed.
Lemma same_peripheral m cfg n n' : same_layout n n' -> peripheral_parse m cfg n = peripheral_parse m cfg n'.
Proof.
  intros S. unfold peripheral_parse. apply same_array; [exact S|alones|]. intros T. unfold peripheral_info_parse.
  sames. apply bind_ext; [apply same_rp; [exact S|rewrite T; alones]|intros].
  apply bind_ext; [|intros].
  { eapply same_collect; [exact (same_group _ _ S "addressBlock")|intros x; symmetry; apply alone_group; al|].
    intros c c' I Q C. rewrite alone_group in Q by al. apply has_tag_tag in Q. now apply same_ab. }
  apply bind_ext; [|intros].
  { eapply same_collect; [exact (same_group _ _ S "interrupt")|intros x; symmetry; apply alone_group; al|].
    intros c c' I Q C. now apply same_it. }
  apply bind_ext; [|intros; now rewrite (same_attr _ _ S)].
  apply (same_optional (fun rs => collect is_element (rc_parse m cfg) (children rs))); [exact S|al|].
  intros c c' Tc C. apply same_list_collect; [rewrite Tc; cbn; auto|exact C|]. intros; now apply same_rc.
Qed.
Lemma same_device m cfg n n' : same_layout n n' -> device_parse m cfg n = device_parse m cfg n'.
Proof.
  intros S. unfold device_parse. apply expect_bind; [exact S|]. intros T. sames.
  apply bind_ext; [apply same_optional; [exact S|al|intros; now apply same_cpu]|intros]. sames.
  apply bind_ext; [apply same_rp; [exact S|rewrite T; alones]|intros].
  apply same_elem_bind2; [exact S|al| |].
  - intros c c' Tc C. apply same_list_collect; [rewrite Tc; cbn; auto|exact C|]. intros; now apply same_peripheral.
  - intros ps. sames. now rewrite !(same_attr _ _ S).
Qed.
