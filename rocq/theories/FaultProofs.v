(** C71: every error the parser reports is true of the node it names. *)
From Verif Require Import BaseFacts Num Types Names Validate Builders Arrays Xml Parse SpecNum NumProofs NumErrors EnumProofs
  SpecValidate NameProofs ValidateProofs BuilderProofs SpecText SpecXml XmlFacts BitProofs SpecArray ArrayProofs SpecParse
  ParseProofs SpecShape ShapeProofs ParseAt AtProofs SpecFault.

(** ** Errors below a node *)
Definition blames (l : level) (w : place) (n : xml) {A} (r : lres A) : Prop :=
  forall e v, r = LErr e v -> exists s x, v = w ++ s /\ node_at n s = Some x /\ fault l e x.

Lemma blames_ok l w n {A} (a : A) : blames l w n (LOk a).
Proof. intros e v H. discriminate. Qed.
Lemma blames_panic l w n {A} p : blames l w n (@LPanic A p).
Proof. intros e v H. discriminate. Qed.
Lemma blames_err l w n {A} e : fault l e n -> blames l w n (@LErr A e w).
Proof. intros F e' v H. injection H as <- <-. exists [], n. rewrite app_nil_r. auto. Qed.
Lemma blames_bind l w n {A B} (r : lres A) (f : A -> lres B) :
  blames l w n r -> (forall a, r = LOk a -> blames l w n (f a)) -> blames l w n (lbind r f).
Proof. intros H K. destruct r as [a|e u|p]; cbn; [now apply K| |apply blames_panic].
  intros e' v E. injection E as <- <-. now apply H.
Qed.
Lemma blames_map l w n {A B} (g : A -> B) r : blames l w n r -> blames l w n (lmap g r).
Proof. intros H. apply blames_bind; [exact H|]. intros. apply blames_ok. Qed.
Lemma blames_at l w n {A} (r : res A) : (forall e, r = Err e -> fault l e n) -> blames l w n (at_ w r).
Proof. intros H. destruct r; cbn; [apply blames_ok|apply blames_err; now apply H|apply blames_panic]. Qed.
Lemma blames_down l w n i c {A} (r : lres A) : nth_error (children n) i = Some c ->
  blames l (w ++ [i]) c r -> blames l w n r.
Proof.
  intros E H e v R. destruct (H e v R) as (s & x & -> & N & F). exists (i :: s), x.
  rewrite <- app_assoc. cbn. now rewrite E.
Qed.
Lemma find_at_some q w l : forall i v c, find_at q w i l = Some (v, c) ->
  exists j, v = w ++ [(i + j)%nat] /\ nth_error l j = Some c /\ q c = true.
Proof.
  induction l as [|x l IH]; intros i v c H; cbn in H; [discriminate|]. destruct (q x) eqn:Q.
  - injection H as <- <-. exists 0%nat. rewrite Nat.add_0_r. auto.
  - destruct (IH _ _ _ H) as (j & -> & N & P). exists (S j). rewrite Nat.add_succ_r. auto.
Qed.
Lemma child_at_place k w n v c : get_child_at k w n = Some (v, c) ->
  exists i, v = w ++ [i] /\ nth_error (children n) i = Some c /\ named k c.
Proof.
  intros H. destruct (find_at_some _ _ _ _ _ _ H) as (j & -> & N & Q). exists j. apply has_tag_named in Q. auto.
Qed.
Lemma blames_child l k w n v c {A} (r : lres A) : get_child_at k w n = Some (v, c) -> blames l v c r -> blames l w n r.
Proof. intros H K. destruct (child_at_place _ _ _ _ _ H) as (i & -> & N & _). eapply blames_down; eassumption. Qed.
Lemma blames_optional l k w n {A} (f : place -> xml -> lres A) :
  (forall v c, named k c -> first_child k n c -> blames l v c (f v c)) -> blames l w n (optional_at f k w n).
Proof.
  intros H. unfold optional_at. destruct (get_child_at k w n) as [[v c]|] eqn:E; [|apply blames_ok].
  apply blames_map. eapply blames_child; [exact E|]. destruct (child_at_place _ _ _ _ _ E) as (_ & _ & _ & K).
  apply H; [exact K|]. apply get_child_first. now apply child_at_some in E.
Qed.
Lemma blames_collect_go l q w n {A} (f : place -> xml -> lres A) cs : forall pre, children n = pre ++ cs ->
  (forall v c, In c cs -> q c = true -> blames l v c (f v c)) -> blames l w n (collect_at q f w (List.length pre) cs).
Proof.
  induction cs as [|c cs IH]; intros pre E H; cbn; [apply blames_ok|].
  assert (R : blames l w n (collect_at q f w (S (List.length pre)) cs)).
  { specialize (IH (pre ++ [c])). rewrite app_length, Nat.add_1_r in IH. apply IH; [now rewrite <- app_assoc|].
    intros. apply H; cbn; auto. }
  destruct (q c) eqn:Q; [|exact R]. apply blames_bind.
  - assert (N : nth_error (children n) (List.length pre) = Some c)
      by (rewrite E, nth_error_app2, Nat.sub_diag by apply Nat.le_refl; reflexivity).
    eapply blames_down; [exact N|]. apply H; cbn; auto.
  - intros a _. apply blames_bind; [exact R|]. intros. apply blames_ok.
Qed.
Lemma blames_collect l q w n {A} (f : place -> xml -> lres A) : (forall v c, In c (children n) -> q c = true -> blames l v c (f v c)) ->
  blames l w n (collect_at q f w 0 (children n)).
Proof. intros H. apply (blames_collect_go l q w n f (children n) []); [reflexivity|exact H]. Qed.

(** ** Texts *)
Lemma no_content n : get_text n = Err (EEmptyTag (tag n)) -> forall s, ~ content n s.
Proof. intros H s C. apply get_text_content in C. congruence. Qed.
Definition mem (k : string) (l : list string) : bool := existsb (seqb k) l.
Lemma mem_in k l : mem k l = true -> In k l.
Proof. unfold mem. intros H. apply existsb_exists in H as (x & I & E). apply seqb_eq in E as ->. exact I. Qed.
Definition valued : list string := numbers32 ++ numbers64 ++ booleans ++ choices.
Lemma blames_text l k w n : named k n -> mem k valued = true -> blames l w n (get_text_at w n).
Proof.
  intros K I. unfold get_text_at. destruct (text n) eqn:E; [apply blames_ok|]. apply blames_err. cbn.
  assert (T : tag n = k) by (destruct K as (a & c & ->); reflexivity). rewrite T. split; [now apply mem_in in I|]. split; [exact K|].
  apply no_content. unfold get_text. now rewrite E.
Qed.
Lemma blames_text_opt l k w n : blames l w n (get_child_text_opt_at k w n).
Proof.
  unfold get_child_text_opt_at, get_text_at. destruct (get_child_at k w n) as [[v c]|]; [|apply blames_ok].
  destruct (text c); apply blames_ok.
Qed.
Lemma text_opt_none k n : get_child_text_opt k n = Ok None -> silent k n.
Proof.
  unfold get_child_text_opt, silent. destruct (get_child k n) as [c|] eqn:E; [|left; now apply get_child_none].
  intros H. right. exists c. split; [now apply get_child_first|]. apply no_content.
  destruct (get_text_cases c) as [[s G]|G]; rewrite G in *; [discriminate|reflexivity].
Qed.
Lemma text_opt_some k n s : get_child_text_opt k n = Ok (Some s) -> says k n s.
Proof.
  unfold get_child_text_opt, says. destruct (get_child k n) as [c|] eqn:E; [|discriminate].
  intros H. exists c. split; [now apply get_child_first|]. apply get_text_content.
  destruct (get_text_cases c) as [[t G]|G]; rewrite G in *; [|discriminate]. congruence.
Qed.
Lemma child_text_says k n s : get_child_text k n = Ok s -> says k n s.
Proof.
  unfold get_child_text. intros H. apply bind_ok in H as (o & H & O). destruct o; [|discriminate].
  injection O as ->. now apply text_opt_some.
Qed.
Lemma erased {A} (r : lres A) (r' : res A) a : erase r = r' -> r = LOk a -> r' = Ok a.
Proof. intros <- ->. reflexivity. Qed.
Definition has_need (t k : string) : bool := existsb (fun e => seqb (fst e) t && mem k (snd e)) must_have.
Lemma has_needs t k n : has_need t k = true -> named t n -> needs n k.
Proof.
  unfold has_need. intros H N. apply existsb_exists in H as ([t' ks] & I & E). cbn in E. apply andb_prop in E as [E M].
  apply seqb_eq in E as ->. left. exists t, ks. split; [exact N|]. split; [exact I|now apply mem_in].
Qed.
Lemma blames_child_text l k w n : needs n k -> blames l w n (get_child_text_at k w n).
Proof.
  intros ND. apply blames_bind; [apply blames_text_opt|]. intros o H. apply blames_at. intros e E.
  destruct o; [discriminate|]. injection E as <-. split; [exact ND|]. apply text_opt_none. eapply erased; [apply erase_text_opt|exact H].
Qed.
Lemma no_child_silent k n : no_child k n -> silent k n. Proof. now left. Qed.
Lemma blames_elem_if l k w n {A} (f : place * xml -> lres A) : (no_child k n -> needs n k) ->
  (forall v c, named k c -> first_child k n c -> blames l v c (f (v, c))) -> blames l w n (lbind (get_child_elem_at k w n) f).
Proof.
  intros ND H. unfold get_child_elem_at. destruct (get_child_at k w n) as [[v c]|] eqn:E; cbn.
  - eapply blames_child; [exact E|]. destruct (child_at_place _ _ _ _ _ E) as (_ & _ & _ & K).
    apply H; [exact K|]. apply get_child_first. now apply child_at_some in E.
  - apply blames_err. apply child_at_none, get_child_none in E. split; [now apply ND|now apply no_child_silent].
Qed.
Lemma blames_elem l k w n {A} (f : place * xml -> lres A) : needs n k ->
  (forall v c, named k c -> first_child k n c -> blames l v c (f (v, c))) -> blames l w n (lbind (get_child_elem_at k w n) f).
Proof. intros ND. now apply blames_elem_if. Qed.
(** As [blames_elem], with the rest after it *)
Lemma blames_elem_bind l k w n {A} (f : place * xml -> lres A) : needs n k ->
  (forall v c, get_child_at k w n = Some (v, c) -> blames l w n (f (v, c))) -> blames l w n (lbind (get_child_elem_at k w n) f).
Proof.
  intros ND H. unfold get_child_elem_at. destruct (get_child_at k w n) as [[v c]|] eqn:E; cbn.
  - now apply H.
  - apply blames_err. split; [exact ND|]. apply no_child_silent, get_child_none. now apply child_at_none in E.
Qed.
(** The bound suits the element. *)
Definition bound_fits (k : string) (b : N) : bool := (mem k numbers64 && (b =? pow64)) || (mem k numbers32 && ((b =? pow32) || (seqb k "value" && (b =? pow64)))).
Lemma mem_app k a b : mem k (a ++ b) = mem k a || mem k b.
Proof. apply existsb_app. Qed.
Lemma blames_num l k b w n : named k n -> bound_fits k b = true -> blames l w n (num_parse_at b w n).
Proof.
  intros K B. assert (M : mem k (numbers32 ++ numbers64) = true).
  { rewrite mem_app. unfold bound_fits in B. apply orb_prop in B as [B|B]; apply andb_prop in B as [-> _]; [apply orb_true_r|reflexivity]. }
  apply blames_bind.
  { apply blames_text with k; [exact K|]. unfold valued. rewrite app_assoc, mem_app, M. reflexivity. }
  intros t H. apply blames_at. intros e E.
  assert (C : get_text n = Ok t) by (eapply erased; [apply erase_text|exact H]).
  assert (L : limit k b).
  { unfold limit, bound_fits in *. change (2 ^ 32) with pow32. change (2 ^ 64) with pow64.
    apply orb_prop in B as [B|B]; apply andb_prop in B as [I B]; apply mem_in in I.
    - left. split; [exact I|]. now apply N.eqb_eq in B.
    - right. apply orb_prop in B as [B|B]; [left; split; [exact I|]; now apply N.eqb_eq in B|right].
      apply andb_prop in B as [V B]. split; [now apply seqb_eq in V|now apply N.eqb_eq in B]. }
  assert (B0 : 0 < b) by (destruct L as [[_ ->]|[[_ ->]|[_ ->]]]; reflexivity).
  destruct (parse_num_total b t) as [[v V]|[i V]]; rewrite V in E; [discriminate|]. injection E as <-.
  destruct (number_errors b t B0) as (NE & NI & NO).
  destruct K as (a & c & ->). exists k, a, c, t. split; [reflexivity|]. split; [now apply get_text_content|].
  split; [now apply mem_in|].
  destruct i; [now apply NE|exists b; split; [exact L|now apply NI]|exists b; split; [exact L|now apply NO]].
Qed.
Lemma blames_bool l k w n : named k n -> mem k booleans = true -> blames l w n (bool_parse_at w n).
Proof.
  intros K M. apply blames_bind.
  { apply blames_text with k; [exact K|]. unfold valued. rewrite !mem_app, M. rewrite !orb_true_r. reflexivity. } intros t H. apply blames_at. intros e E.
  assert (C : get_text n = Ok t) by (eapply erased; [apply erase_text|exact H]).
  assert (N : ~ In t ["0"; "1"; "true"; "false"]%string).
  { intros I. cbn in I. destruct I as [<-|[<-|[<-|[<-|[]]]]]; discriminate. }
  assert (X : e = EInvalidBool t).
  { rewrite parse_bool_error in E; [congruence|]. intros b B. apply N. destruct B; cbn; auto. }
  subst e. cbn [fault]. split; [exists k; split; [exact K|now apply mem_in]|]. split; [now apply get_text_content|]. exact N.
Qed.
Lemma blames_enum l {A} (f : string -> option A) e k texts w n : named k n -> mem k choices = true ->
  Forall (fun s => f s <> None) texts -> (forall s, none_of k texts s n -> fault l (e s) n) -> blames l w n (enum_at f e w n).
Proof.
  intros K M T Q. apply blames_bind.
  { apply blames_text with k; [exact K|]. unfold valued. rewrite !mem_app, M. rewrite !orb_true_r. reflexivity. } intros t H. apply blames_at. intros e' E.
  destruct (f t) as [x|] eqn:X; cbn in E; [discriminate|]. injection E as <-. apply Q. split; [exact K|]. split; [apply get_text_content; eapply erased; [apply erase_text|exact H]|].
  intros I. rewrite Forall_forall in T. exact (T t I X).
Qed.
Ltac texts K := eapply blames_enum; [exact K|reflexivity| |cbn [fault]; intros s H; first [exact H|exists s; exact H]]; repeat (constructor; [discriminate|]); constructor.
Lemma blames_access l w n : named "access" n -> blames l w n (access_at w n). Proof. intros K. texts K. Qed.
Lemma blames_usage l w n : named "usage" n -> blames l w n (usage_at w n). Proof. intros K. texts K. Qed.
Lemma blames_data_type l w n : named "dataType" n -> blames l w n (data_type_at w n). Proof. intros K. texts K. Qed.
Lemma blames_mwv l w n : named "modifiedWriteValues" n -> blames l w n (mwv_at w n). Proof. intros K. texts K. Qed.
Lemma blames_read_action l w n : named "readAction" n -> blames l w n (read_action_at w n). Proof. intros K. texts K. Qed.
Lemma blames_protection l w n : named "protection" n -> blames l w n (protection_at w n). Proof. intros K. texts K. Qed.
Lemma blames_endian l w n : named "endian" n -> blames l w n (endian_at w n). Proof. intros K. texts K. Qed.
Lemma blames_ab_usage l w n : named "usage" n -> blames l w n (ab_usage_at w n). Proof. intros K. texts K. Qed.

Lemma blames_u32 l k w n : needs n k -> bound_fits k pow32 = true -> blames l w n (get_child_u32_at k w n).
Proof. intros ND K. apply blames_elem; [exact ND|]. intros v c N _. cbn [fst snd]. now apply blames_num with k. Qed.
Lemma blames_u64 l k w n : needs n k -> bound_fits k pow64 = true -> blames l w n (get_child_u64_at k w n).
Proof. intros ND K. apply blames_elem; [exact ND|]. intros v c N _. cbn [fst snd]. now apply blames_num with k. Qed.
Lemma blames_child_bool_if l k w n : (no_child k n -> needs n k) -> mem k booleans = true -> blames l w n (get_child_bool_at k w n).
Proof. intros ND K. apply blames_elem_if; [exact ND|]. intros v c N _. cbn [fst snd]. now apply blames_bool with k. Qed.
Lemma blames_child_bool l k w n : needs n k -> mem k booleans = true -> blames l w n (get_child_bool_at k w n).
Proof. intros ND. now apply blames_child_bool_if. Qed.
Lemma named_element k n : named k n -> an_element n.
Proof. intros (a & l & ->). now exists k, a, l. Qed.
Lemma blames_expect l t w n : an_element n -> mem t ["enumeratedValue"; "field"; "peripheral"]%string = true -> blames l w n (expect_at t w n).
Proof.
  intros K M. apply blames_at. intros e E. apply check_err in E as [E ->]. split; [now apply mem_in in M|]. split; [exact K|].
  intros N. apply has_tag_named in N. congruence.
Qed.
Lemma blames_expect_ok l t w n : named t n -> blames l w n (expect_at t w n).
Proof. intros N. apply blames_at. intros e E. apply check_err in E as [E ->]. apply has_tag_named in N. congruence. Qed.
Lemma expected t w n u : expect_at t w n = LOk u -> named t n.
Proof. unfold expect_at, lcheck, check. destruct (has_tag t n) eqn:E; cbn; [|discriminate]. intros _. now apply has_tag_named. Qed.
Lemma blames_lok_of l w n {A} (r : lres A) : blames l w n (lok_of r).
Proof. destruct r; cbn; [apply blames_ok|apply blames_ok|apply blames_panic]. Qed.

(** ** Results *)
Lemma bind_err {A B} (r : res A) (f : A -> res B) e : bind r f = Err e -> r = Err e \/ exists a, r = Ok a /\ f a = Err e.
Proof. destruct r; cbn; [right; eauto|left; congruence|discriminate]. Qed.
Lemma when_err b r e : when b r = Err e -> b = true /\ r = Err e.
Proof. destruct b; [auto|discriminate]. Qed.
Lemma iterM_err {A} (f : A -> res unit) l e : iterM f l = Err e -> exists a, In a l /\ f a = Err e.
Proof.
  induction l as [|x l IH]; [discriminate|]. cbn. intros H. apply bind_err in H as [H|(_ & _ & H)].
  - exists x. auto.
  - destruct (IH H) as (a & I & E). exists a. auto.
Qed.
Lemma iterM_opt_err {A} (f : A -> res unit) o e : iterM_opt f o = Err e -> exists a, o = Some a /\ f a = Err e.
Proof. destruct o; [eauto|discriminate]. Qed.
Lemma validated_err {A} (v : A -> res unit) x e : validated v x = Err e -> v x = Err e.
Proof. unfold validated. destruct (v x); cbn; congruence. Qed.
Lemma attr_some k n s : attr k n = Some s -> attribute k n s.
Proof.
  destruct n as [t a l| |]; cbn; try discriminate. intros H.
  destruct (find_first _ a) as [[k' s']|] eqn:E; [|discriminate]. injection H as <-.
  apply find_first_some in E as (pre & post & E & Q & F). cbn in Q. apply seqb_eq in Q as ->.
  exists t, a, l, pre, post. split; [reflexivity|]. split; [exact E|].
  apply Forall_forall. intros kv I. rewrite Forall_forall in F. specialize (F kv I). cbn in F. now apply seqb_neq.
Qed.
Lemma attr_none k n : attr k n = None -> no_attribute k n.
Proof.
  intros H t a l ->. cbn in H. destruct (find_first _ a) eqn:E; [discriminate|].
  apply Forall_forall. intros kv I. assert (F := proj1 (find_first_none _ _) E). rewrite Forall_forall in F.
  specialize (F kv I). cbn in F. now apply seqb_neq.
Qed.
Lemma optional_some {A} (f : xml -> res A) k n a : optional f k n = Ok (Some a) -> exists c, first_child k n c /\ f c = Ok a.
Proof.
  unfold optional. intros H. apply mapM_opt_ok in H. destruct (get_child k n) as [c|] eqn:E; [|contradiction].
  exists c. split; [now apply get_child_first|exact H].
Qed.
Lemma optional_none {A} (f : xml -> res A) k n : optional f k n = Ok None -> no_child k n.
Proof. unfold optional. intros H. apply mapM_opt_ok in H. destruct (get_child k n) as [c|] eqn:E; [contradiction|]. now apply get_child_none. Qed.
Lemma optional_counts b k n v : 0 < b -> optional (num_parse b) k n = Ok (Some v) -> counts b k n v.
Proof.
  intros B H. apply optional_some in H as (c & F & N). exists c. split; [exact F|]. now apply num_parse_number in N.
Qed.
Lemma child_counts b k n v : 0 < b -> bind (get_child_elem k n) (num_parse b) = Ok v -> counts b k n v.
Proof.
  intros B H. apply bind_ok in H as (c & G & N). unfold get_child_elem in G. destruct (get_child k n) as [c'|] eqn:E; [|discriminate].
  injection G as ->. exists c. split; [now apply get_child_first|]. now apply num_parse_number in N.
Qed.

(** ** Names *)
Lemma derived_err s k e : check_derived_name s k = Err e ->
  exists pieces p, cut "." s pieces /\ In p pieces /\ ~ arrayable_name p /\ e = EName p k.
Proof.
  intros H. apply iterM_err in H as (p & I & E). apply check_dimable_err in E as [N ->].
  exists (split "." s), p. split; [apply split_cut|]. auto.
Qed.
