From Verif Require Import Base BaseFacts Num NumProofs Types Xml SpecNum SpecArray SpecText SpecXml TrimProofs.

Lemma pow32_eq : pow32 = 2 ^ 32.
Proof. reflexivity. Qed.

Lemma has_tag_named k c : has_tag k c = true <-> named k c.
Proof.
  unfold named. destruct c as [t a l| |]; cbn; [|split; [discriminate|intros (a & l & E); discriminate]..].
  rewrite seqb_eq. split.
  - intros ->. eauto.
  - intros (a' & l' & E). now injection E.
Qed.
Lemma get_child_first k n c : get_child k n = Some c <-> first_child k n c.
Proof.
  unfold get_child, first_child. destruct n as [t a l| |]; cbn [children];
    [|split; [discriminate|intros (t & a & p & q & E & _); discriminate]..].
  assert (F : forall pre, Forall (fun x => has_tag k x = false) pre <-> Forall (fun x => ~ named k x) pre).
  { intros pre. rewrite !Forall_forall. split; intros H x Hx; specialize (H x Hx).
    - rewrite <- has_tag_named. congruence.
    - rewrite <- has_tag_named in H. destruct (has_tag k x); congruence. }
  rewrite find_first_some. split.
  - intros (pre & post & -> & P & H). exists t, a, pre, post. split; [reflexivity|]. split; [now apply has_tag_named|].
    now apply F.
  - intros (t' & a' & pre & post & E & N & H). injection E as -> -> ->. exists pre, post. split; [reflexivity|].
    split; [now apply has_tag_named|]. now apply F.
Qed.
Lemma get_child_none k n : get_child k n = None <-> no_child k n.
Proof.
  unfold get_child, no_child. destruct n as [t a l| |]; cbn [children];
    [|split; [intros _ t a l E; discriminate|reflexivity]..].
  rewrite find_first_none. rewrite Forall_forall. split.
  - intros H t' a' l' E. injection E as <- <- <-. rewrite Forall_forall. intros x Hx.
    rewrite <- has_tag_named. rewrite (H x Hx). discriminate.
  - intros H x Hx. specialize (H t a l eq_refl). rewrite Forall_forall in H. specialize (H x Hx).
    rewrite <- has_tag_named in H. destruct (has_tag k x); congruence.
Qed.
Lemma text_node n s : text n = Some s <-> node_text n s.
Proof.
  unfold text, node_text. split.
  - destruct n as [t a [|[t' a' l'|s'|] l]| |]; cbn [children]; try discriminate.
    destruct s' as [|c s']; cbn [str_empty]; [discriminate|]. intros E. injection E as <-.
    exists t, a, l. split; [reflexivity|discriminate].
  - intros (t & a & l & -> & N). cbn [children]. destruct s; [congruence|reflexivity].
Qed.
Lemma get_text_content n s : get_text n = Ok s <-> content n s.
Proof.
  unfold get_text, content. split.
  - destruct (text n) as [t|] eqn:E; [|discriminate]. intros H. injection H as <-.
    exists t. split; [now apply text_node|now apply trim_spec].
  - intros (t & H & T). apply text_node in H. rewrite H. apply trim_spec in T. now subst.
Qed.
Lemma get_text_cases n : (exists s, get_text n = Ok s) \/ get_text n = Err (EEmptyTag (tag n)).
Proof. unfold get_text. destruct (text n); eauto. Qed.
Lemma num_parse_number bound n v : 0 < bound -> num_parse bound n = Ok v <-> number bound n v.
Proof.
  intros B. unfold num_parse, number. split.
  - intros H. apply bind_ok in H as (s & H & P). exists s. apply parse_num_spec in P; auto. split; [now apply get_text_content|exact P].
  - intros (s & H & P). apply get_text_content in H. rewrite H. cbn [bind]. now apply parse_num_spec.
Qed.
Lemma num_parse_no_panic bound n p : num_parse bound n <> Panic p.
Proof.
  unfold num_parse. destruct (get_text_cases n) as [[s ->] | ->]; [|discriminate]. cbn [bind].
  destruct (parse_num_total bound s) as [[v ->] | [k ->]]; discriminate.
Qed.

(** ** Finding children in concatenations *)
Definition lacks (k : string) (l : list xml) : Prop := Forall (fun x => has_tag k x = false) l.
Lemma find_app {A} (f : A -> bool) l l' : find_first f (l ++ l') =
  match find_first f l with Some a => Some a | None => find_first f l' end.
Proof. induction l as [|x l IH]; [reflexivity|]. cbn. destruct (f x); [reflexivity|exact IH]. Qed.
Lemma find_lacks k l l' : lacks k l -> find_first (has_tag k) (l ++ l') = find_first (has_tag k) l'.
Proof. intros H. rewrite find_app. now rewrite (proj2 (find_first_none _ l) H). Qed.
Lemma find_lacks_all k l : lacks k l -> find_first (has_tag k) l = None.
Proof. intros H. now apply find_first_none. Qed.
Lemma find_new_node k s l : find_first (has_tag k) (new_node k s :: l) = Some (new_node k s).
Proof. cbn. now rewrite seqb_refl. Qed.
Lemma text_new_node k s : s <> ""%string -> text (new_node k s) = Some s.
Proof. destruct s; [congruence|reflexivity]. Qed.
(** Decide comparisons of tag names. *)
Ltac seqbs := repeat match goal with
  | |- context [seqb ?a ?b] =>
      let v := eval vm_compute in (seqb a b) in
      match v with true => idtac | false => idtac end; change (seqb a b) with v; cbv iota
  end.
Lemma find_cons_elem k t a c l : find_first (has_tag k) (Elem t a c :: l) =
  if seqb t k then Some (Elem t a c) else find_first (has_tag k) l.
Proof. reflexivity. Qed.
Lemma find_cons_new k t s l : find_first (has_tag k) (new_node t s :: l) =
  if seqb t k then Some (new_node t s) else find_first (has_tag k) l.
Proof. reflexivity. Qed.
