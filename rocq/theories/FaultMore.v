(** C71, continued: the elements. *)
From Verif Require Import BaseFacts Num Types Names Validate Builders Arrays Xml Parse SpecNum NumProofs EnumProofs
  SpecValidate NameProofs ValidateProofs BuilderProofs SpecText SpecXml XmlFacts BitProofs SpecArray ArrayProofs SpecParse
  ParseProofs SpecShape ShapeProofs ParseAt AtProofs SpecFault FaultProofs.

(** [n] must have the child; [X] says what [n] is *)
Ltac need X := first [exact X|eapply has_needs; [|exact X]; reflexivity].
Ltac ct X := apply blames_child_text; need X.
Ltac u32 X := apply blames_u32; [need X|reflexivity].
Ltac u64 X := apply blames_u64; [need X|reflexivity].
Ltac tot t := eapply erased; [apply t|eassumption].

(** ** Register properties *)
Lemma size_pow v s : N.size v <=? s = false -> 2 ^ s <= v.
Proof.
  intros H. apply N.leb_gt in H. destruct v as [|p]; [cbn in H; lia|].
  assert (E := N.size_log2 (N.pos p) ltac:(discriminate)). rewrite E in H. apply N.lt_succ_r in H.
  assert (L := proj1 (N.log2_spec (N.pos p) ltac:(reflexivity))).
  eapply N.le_trans; [|exact L]. apply N.pow_le_mono_r; [discriminate|exact H].
Qed.
Lemma mask_conflict v k : N.land v k =? v = false -> exists i, N.testbit v i = true /\ N.testbit k i = false.
Proof.
  intros H. apply N.eqb_neq in H.
  assert (D : N.ldiff v k <> 0).
  { intros D. apply H. apply N.bits_inj. intros i. rewrite N.land_spec.
    assert (B : N.testbit (N.ldiff v k) i = false) by (rewrite D; apply N.bits_0). rewrite N.ldiff_spec in B.
    destruct (N.testbit v i), (N.testbit k i); auto; discriminate. }
  exists (N.log2 (N.ldiff v k)). assert (B := N.bit_log2 _ D). rewrite N.ldiff_spec in B.
  apply andb_prop in B as [B1 B2]. split; [exact B1|]. now destruct (N.testbit k _).
Qed.
Lemma rp_fault l p n e : rp_build l p = Err e ->
  (forall v, rp_size p = Some v -> counts pow32 "size" n v) ->
  (forall v, rp_reset_value p = Some v -> counts pow64 "resetValue" n v) ->
  (forall v, rp_reset_mask p = Some v -> counts pow64 "resetMask" n v) -> fault l e n.
Proof.
  intros H S V M. apply validated_err in H. unfold rp_validate in H. apply when_err in H as [C H]. apply checked_iff in C.
  unfold check_reset_value in H. apply bind_err in H as [H|(_ & _ & H)].
  - destruct (rp_size p) as [s|]; [|discriminate]. destruct (rp_reset_value p) as [v|]; [|discriminate].
    apply check_err in H as [H ->]. cbn. conjs; auto. now apply size_pow.
  - apply when_err in H as [L H]. apply strict_iff in L. apply bind_err in H as [H|(_ & _ & H)].
    + destruct (rp_size p) as [s|]; [|discriminate]. destruct (rp_reset_mask p) as [k|]; [|discriminate].
      apply check_err in H as [H ->]. cbn. conjs; auto. now apply size_pow.
    + destruct (rp_reset_value p) as [v|]; [|discriminate]. destruct (rp_reset_mask p) as [k|]; [|discriminate].
      apply check_err in H as [H ->]. cbn. conjs; auto. now apply mask_conflict.
Qed.
(** The properties that were parsed have passed their check. *)
Lemma rp_parsed cfg n p : rp_parse cfg n = Ok p -> rp_build (pc_level cfg) p = Ok p.
Proof.
  unfold rp_parse. intros H. binds H. assert (H' := H). unfold rp_build in H'. apply validated_ok in H' as [E V].
  rewrite <- E in V. unfold rp_build. apply validated_ok. auto.
Qed.
Lemma blames_rp cfg w n : blames (pc_level cfg) w n (rp_at cfg w n).
Proof.
  unfold rp_at.
  apply blames_bind; [apply blames_optional; intros v c K _; apply blames_num with "size"; [exact K|reflexivity]|]. intros size E1.
  apply blames_bind; [apply blames_optional; intros; now apply blames_access|]. intros acc E2.
  apply blames_bind; [apply blames_optional; intros; now apply blames_protection|]. intros prot E3.
  apply blames_bind; [apply blames_optional; intros v c K _; now apply blames_num with "resetValue"|]. intros rv E4.
  apply blames_bind; [apply blames_optional; intros v c K _; now apply blames_num with "resetMask"|]. intros rm E5.
  apply blames_at. intros e E. eapply rp_fault; [exact E|..]; cbn; intros v ->.
  - apply optional_counts; [reflexivity|]. eapply erased; [apply erase_optional; intros; apply erase_num|exact E1].
  - apply optional_counts; [reflexivity|]. eapply erased; [apply erase_optional; intros; apply erase_num|exact E4].
  - apply optional_counts; [reflexivity|]. eapply erased; [apply erase_optional; intros; apply erase_num|exact E5].
Qed.

(** ** Write constraints *)
Lemma filter_split {A} (f : A -> bool) l x rest : filter f l = x :: rest ->
  exists l1 l2, l = l1 ++ x :: l2 /\ Forall (fun a => f a = false) l1 /\ f x = true /\ filter f l2 = rest.
Proof.
  induction l as [|a l IH]; [discriminate|]. cbn. destruct (f a) eqn:F; intros H.
  - injection H as -> <-. exists [], l. auto.
  - destruct (IH H) as (l1 & l2 & -> & A1 & A2 & A3). exists (a :: l1), l2. conjs; auto.
Qed.
Lemma element_iff n : is_element n = true <-> an_element n.
Proof. split; [destruct n as [t a l| |]; try discriminate; intros _; now exists t, a, l|intros (t & a & l & ->); reflexivity]. Qed.
Lemma blames_wc_range l w n : named "range" n -> blames l w n (wc_range_at w n).
Proof.
  intros X. unfold wc_range_at. apply blames_bind; [u64 X|]. intros. apply blames_bind; [u64 X|]. intros. apply blames_ok.
Qed.
Lemma blames_wc l w n : named "writeConstraint" n -> blames l w n (wc_at w n).
Proof.
  intros K. unfold wc_at. destruct (filter is_element (children n)) as [|c [|d rest]] eqn:F.
  - apply blames_panic.
  - assert (HC : no_child (tag c) n -> needs n (tag c)).
    { intros N. exfalso. destruct K as (a & ch & ->). cbn in F. apply filter_split in F as (l1 & l2 & C & _ & X & _).
      specialize (N _ _ _ eq_refl). rewrite Forall_forall in N. apply (N c); [rewrite C; apply in_elt|].
      destruct c as [t b kk| |]; try discriminate. now exists b, kk. }
    repeat match goal with |- context [if ?b then _ else _] => destruct b eqn:?E end.
    + apply blames_map, blames_child_bool_if; [exact HC|]. apply seqb_eq in E as ->. reflexivity.
    + apply blames_map, blames_child_bool_if; [exact HC|]. apply seqb_eq in E0 as ->. reflexivity.
    + apply blames_elem_if; [exact HC|]. intros v x N _. apply blames_wc_range. apply seqb_eq in E1 as <-. exact N.
    + apply blames_err. cbn. split; [exact K|]. apply filter_split in F as (l1 & l2 & C & _ & X & _).
      exists (tag c), c. split; [rewrite C; apply in_elt|]. split.
      * destruct c as [t a ch| |]; try discriminate. now exists a, ch.
      * rewrite seqb_neq in *. intros [I|[I|[I|[]]]]; congruence.
  - apply blames_err. cbn. split; [exact K|]. apply filter_split in F as (l1 & l2 & C & _ & X & F).
    apply filter_split in F as (l3 & l4 & D & _ & Y & _). destruct K as (a & ch & ->). cbn in C. subst ch l2.
    exists "writeConstraint"%string, a, l1, c, l3, d, l4. rewrite <- !element_iff. auto.
Qed.

(** ** Bit ranges *)
Lemma relabelled {A} e w (r : lres A) : relabel e w r = at_ w (map_err e (erase r)).
Proof. now destruct r. Qed.
Lemma bit_range_at_eq m w n : bit_range_at m w n = at_ w (bit_range_parse m n).
Proof.
  unfold bit_range_at, bit_range_parse. rewrite <- !(child_at_eq _ w).
  assert (B : forall {A B} (r : res A) (f : A -> res B) g, (forall a, g a = at_ w (f a)) -> lbind (at_ w r) g = at_ w (bind r f)).
  { intros A B r f g H. destruct r; cbn; auto. }
  destruct (get_child_at "bitRange" w n) as [[v c]|]; cbn [option_map snd].
  - apply B. intros t. destruct t as [|h rest]; [reflexivity|].
    destruct h as [[] [] [] [] [] [] [] []]; try reflexivity.
    destruct (last_char _) as [[[] [] [] [] [] [] [] []]|]; try reflexivity.
    destruct (split ":" (drop_last rest)) as [|a more]; [reflexivity|].
    apply B. intros. destruct more; [reflexivity|]. apply B. reflexivity.
  - destruct (get_child_at "lsb" w n) as [[vl cl]|], (get_child_at "msb" w n) as [[vm cm]|]; cbn [option_map snd];
      try (rewrite !relabelled, !erase_num; apply B; intros; apply B; reflexivity);
    destruct (get_child_at "bitOffset" w n) as [[vo co]|], (get_child_at "bitWidth" w n) as [[vw cw]|]; cbn [option_map snd];
      try reflexivity; rewrite !relabelled, !erase_num; apply B; intros; apply B; reflexivity.
Qed.
Lemma bits_fault m l n e : named "field" n -> bit_range_parse m n = Err e -> fault l e n.
Proof.
  intros K H.
  assert (N1 : e <> EInvalidBitRangeSize -> forall h lo t, ~ written_ends n h lo t).
  { intros D h lo t W. rewrite (bits_ends m _ _ _ _ W) in H. unfold bit_range_of in H.
    destruct (h <? lo); [congruence|]. unfold sub32, sub_w, add32, add_w in H.
    destruct m; cbn in H; repeat match type of H with context [if ?b then _ else _] => destruct b; cbn in H end; discriminate. }
  assert (N2 : forall o w, ~ written_size n o w) by (intros o w W; rewrite (bits_size m _ _ _ W) in H; discriminate).
  rewrite bit_range_parse_eq in H. destruct (has_ends n) eqn:HE.
  - apply bind_err in H as [H|([[h lo] t] & W & H)].
    + unfold ends_parse in H. destruct (get_child "bitRange" n) as [r|] eqn:R.
      * apply bind_err in H as [H|(x & X & H)].
        { destruct (text r) eqn:T; [discriminate|]. injection H as <-. cbn. split; [exact K|]. exists r.
          split; [now apply get_child_first|]. intros s N. apply text_node in N. congruence. }
        apply bind_err in H as [H|(y & Y & H)]; [|discriminate].
        assert (S : e = EInvalidBitRangeSyntax \/ e = EInvalidBitRangeParse).
        { unfold brackets in H. destruct x as [|h rest]; [left; congruence|].
          destruct h as [[] [] [] [] [] [] [] []]; try (left; congruence).
          destruct (last_char _) as [[[] [] [] [] [] [] [] []]|]; try (left; congruence).
          destruct (split ":" (drop_last rest)) as [|a more]; [left; congruence|].
          destruct (parse_dec pow32 a); cbn in H; [|right; congruence]. destruct more; [left; congruence|].
          destruct (parse_dec pow32 s); cbn in H; [discriminate|right; congruence]. }
        destruct S as [->| ->]; cbn; (split; [exact K|]); (split; [apply N1; discriminate|exact N2]).
      * destruct (get_child "lsb" n) as [lsb|] eqn:L; [destruct (get_child "msb" n) as [msb|] eqn:M|].
        { assert (S : e = EInvalidBitRangeMsbLsb).
          { apply bind_err in H as [H|(? & _ & H)].
            - destruct (num_parse pow32 msb); cbn in H; congruence.
            - apply bind_err in H as [H|(? & _ & H)]; [destruct (num_parse pow32 lsb); cbn in H; congruence|discriminate]. }
          subst e. cbn. split; [exact K|]. split; [now apply get_child_none|].
          split; [intros X; apply get_child_none in X; congruence|]. split; [intros X; apply get_child_none in X; congruence|].
          apply N1. discriminate. }
        all: unfold has_ends in HE; rewrite R, L in HE; try rewrite M in HE; discriminate.
    + apply ends_written in W. unfold bit_range_of in H. destruct (N.ltb_spec h lo) as [C|C].
      * injection H as <-. cbn. split; [exact K|]. exists t, h, lo. auto.
      * unfold sub32, sub_w, add32, add_w in H.
        destruct m; cbn in H; repeat match type of H with context [if ?b then _ else _] => destruct b; cbn in H end; discriminate.
  - assert (S : e = EInvalidBitRangeSyntax \/ e = EInvalidBitRangeParse).
    { unfold size_parse in H. destruct (get_child "bitOffset" n) as [o|]; [destruct (get_child "bitWidth" n) as [wd|]|]; try (left; congruence).
      right. apply bind_err in H as [H|(? & _ & H)].
      - destruct (num_parse pow32 o); cbn in H; congruence.
      - apply bind_err in H as [H|(? & _ & H)]; [destruct (num_parse pow32 wd); cbn in H; congruence|discriminate]. }
    destruct S as [->| ->]; cbn; (split; [exact K|]); (split; [apply N1; discriminate|exact N2]).
Qed.
Lemma blames_bit_range m l w n : named "field" n -> blames l w n (bit_range_at m w n).
Proof. intros K. rewrite bit_range_at_eq. apply blames_at. intros e. now apply bits_fault. Qed.

(** ** Enumerated values *)
Lemma opt_bool_text b k n : get_child_bool k n = Ok b -> exists s, says k n s /\ boolean_text s b.
Proof.
  unfold get_child_bool, get_child_elem. intros H. apply bind_ok in H as (c & G & H).
  destruct (get_child k n) as [c'|] eqn:E; [|discriminate]. injection G as ->. unfold bool_parse in H.
  apply bind_ok in H as (t & T & H). exists t. split; [exists c; split; [now apply get_child_first|now apply get_text_content]|].
  now apply parse_bool_spec.
Qed.
Lemma says_unique k n s s' : says k n s -> says k n s' -> s = s'.
Proof.
  intros (c & F & C) (c' & F' & C'). apply get_child_first in F, F'. rewrite F in F'. injection F' as <-.
  apply get_text_content in C, C'. congruence.
Qed.
Lemma is_default_none n s : ok_of (get_child_bool "isDefault" n) = Ok None -> says "isDefault" n s -> ~ In s ["1"; "true"]%string.
Proof.
  intros H (c & F & C) I. apply get_child_first in F. apply get_text_content in C.
  unfold get_child_bool, get_child_elem, bool_parse in H. rewrite F in H. cbn [ok_or bind] in H. rewrite C in H. cbn [bind] in H.
  destruct I as [<-|[<-|[]]]; discriminate.
Qed.
Lemma blames_ev cfg w n : an_element n -> blames (pc_level cfg) w n (ev_at cfg w n).
Proof.
  intros K. unfold ev_at. apply blames_bind; [apply blames_expect; [exact K|reflexivity]|]. intros u X. apply expected in X. clear K u.
  apply blames_bind; [ct X|]. intros name E1.
  apply blames_bind; [apply blames_text_opt|]. intros descr E2.
  apply blames_bind; [apply blames_optional; intros v c K _; now apply blames_num with "value"|]. intros value E3.
  apply blames_bind; [apply blames_lok_of|]. intros dflt E4.
  apply blames_at. intros e E. unfold ev_build in E. cbn [required ok_or bind evb_name] in E. apply validated_err in E.
  unfold ev_validate in E. apply when_err in E as [C E]. apply checked_iff in C.
  assert (D4 : ok_of (get_child_bool "isDefault" n) = Ok dflt) by (eapply erased; [apply erase_ok_of, erase_child_bool|exact E4]).
  apply bind_err in E as [E|(_ & _ & E)].
  - apply when_err in E as [L E]. apply strict_iff in L. cbn in E. apply check_name_err in E as [N ->]. cbn. split; [exact L|].
    apply mn_values; [now left| |exact N]. apply child_text_says. tot erase_child_text.
  - unfold ev_default in E. cbn in E. destruct value as [v|].
    + destruct dflt as [[]|]; cbn in E; try discriminate. destruct (is_strict (pc_level cfg)) eqn:L; [|discriminate].
      injection E as <-. cbn. apply strict_iff in L. conjs; auto.
      * exists v. split; [reflexivity|]. apply optional_counts; [reflexivity|]. eapply erased; [apply erase_optional; intros; apply erase_num|exact E3].
      * destruct (get_child_bool "isDefault" n) as [b| |] eqn:B; try discriminate. injection D4 as ->.
        apply opt_bool_text in B as (s & S & T). exists s. split; [exact S|]. inversion T; cbn; auto.
    + assert (N : no_child "value" n) by (eapply optional_none, erased; [apply erase_optional; intros; apply erase_num|exact E3]).
      destruct dflt as [[]|]; cbn in E; try discriminate; injection E as <-; cbn; (split; [exact C|]); (split; [exact X|]); (split; [exact N|]); intros s S I.
      * destruct (get_child_bool "isDefault" n) as [b| |] eqn:B; try discriminate. injection D4 as ->.
        apply opt_bool_text in B as (s' & S' & T). rewrite (says_unique _ _ _ _ S S') in I. inversion T; subst s';
        destruct I as [I|[I|[]]]; discriminate.
      * now apply (is_default_none n s D4 S).
Qed.
Lemma blames_ev_item cfg w n : an_element n -> blames (pc_level cfg) w n (ev_item_at cfg w n).
Proof.
  intros K. unfold ev_item_at. destruct (has_tag _ n) eqn:T; [now apply blames_ev|]. apply blames_err. cbn.
  split; [auto|]. split; [exact K|]. intros N. apply has_tag_named in N. congruence.
Qed.
Lemma name_or_none o s : empty_str_to_none o = Some s -> o = Some s.
Proof. destruct o as [x|]; cbn; [destruct (str_empty x); congruence|discriminate]. Qed.
Lemma misnamed_path l k n p e : In k ["enumeratedValues"; "field"; "register"; "cluster"]%string -> named k n -> l = Strict ->
  attr "derivedFrom" n = Some p -> check_derived_name p "derivedFrom" = Err e -> fault l e n.
Proof.
  intros I K L A H. apply derived_err in H as (ps & x & C & X & N & ->). cbn. split; [exact L|].
  eapply mn_path; eauto. now apply attr_some.
Qed.
Lemma blames_evs cfg w n : named "enumeratedValues" n -> blames (pc_level cfg) w n (evs_at cfg w n).
Proof.
  intros X. unfold evs_at. apply blames_bind; [now apply blames_expect_ok|]. intros u _. clear u.
  apply blames_bind; [apply blames_text_opt|]. intros name E1.
  apply blames_bind; [apply blames_optional; intros; now apply blames_usage|]. intros use E2.
  apply blames_bind.
  { apply blames_collect. intros v c _ Q. apply blames_ev_item. unfold evs_item in Q. apply andb_prop in Q as [Q _]. now apply element_iff. }
  intros values E3. apply blames_at. intros e E. unfold evs_build in E. apply validated_err in E.
  unfold evs_validate in E. apply when_err in E as [C E]. apply checked_iff in C. cbn in E. apply bind_err in E as [E|(_ & _ & E)].
  - apply when_err in E as [L E]. apply strict_iff in L. apply iterM_opt_err in E as (s & S & E). apply name_or_none in S. subst name.
    apply check_name_err in E as [N ->]. cbn. split; [exact L|]. apply mn_values; [now right| |exact N].
    apply text_opt_some. tot erase_text_opt.
  - destruct (attr "derivedFrom" n) as [p|] eqn:A.
    + apply when_err in E as [L E]. apply strict_iff in L. eapply misnamed_path; [|exact X|exact L|exact A|exact E]. cbn; auto.
    + apply check_err in E as [E ->]. cbn. conjs; auto; [now apply attr_none|]. destruct values; [|discriminate].
      assert (V : collect evs_item (ev_item cfg) (children n) = Ok []).
      { eapply erased; [apply erase_collect; intros; apply erase_ev_item|exact E3]. }
      apply collect_ok in V. inversion V as [F|]. intros t a l' ->. cbn in F. apply Forall_forall. intros c I N.
      assert (IN : In c (filter evs_item l')) by (apply filter_In; split; [exact I|]; destruct N as (b & k & ->); reflexivity).
      rewrite <- F in IN. exact IN.
Qed.
