From Verif Require Import Base BaseFacts SpecArray ArrayProofs Expand SpecPath.
From Coq Require Import Lia.

Lemma pop_spec {A} (l : list A) i z : pop l = Some (i, z) <-> l = i ++ [z].
Proof.
  revert i z; induction l as [|a l IH]; intros i z.
  - split; [discriminate|]. destruct i; discriminate.
  - destruct l as [|b l].
    + cbn. split.
      * intros [= <- <-]. reflexivity.
      * intros H. destruct i as [|c i]; cbn in H; [congruence|].
        injection H as -> H. destruct i; discriminate.
    + change (pop (a :: b :: l)) with
        (match pop (b :: l) with Some (i, z) => Some (a :: i, z) | None => None end).
      destruct (pop (b :: l)) as [[i' z']|] eqn:E.
      * split.
        -- intros [= <- <-]. cbn. f_equal. apply IH. reflexivity.
        -- intros H. destruct i as [|c i]; [discriminate|]. cbn in H. injection H as -> H.
           apply IH in H. congruence.
      * split; [discriminate|]. intros H. destruct i as [|c i]; [discriminate|]. cbn in H.
        injection H as -> H. apply IH in H. discriminate.
Qed.
Lemma pop_none {A} (l : list A) : pop l = None <-> l = [].
Proof.
  split; [|intros ->; reflexivity]. destruct l as [|a l]; [reflexivity|]. intros H.
  destruct (exists_last (l:=a :: l) ltac:(discriminate)) as [i [z E]].
  apply pop_spec in E. congruence.
Qed.
Lemma pop_last {A} (l : list A) : l <> [] -> exists i z, pop l = Some (i, z) /\ l = i ++ [z].
Proof.
  intros H. destruct (exists_last H) as [i [z E]]. exists i, z. split; [apply pop_spec|]; exact E.
Qed.

Lemma glue_cons c p l : l <> [] -> glue c (p :: l) = (p ++ String c (glue c l))%string.
Proof. destruct l; [congruence|reflexivity]. Qed.
Lemma glue_snoc c l n : l <> [] -> glue c (l ++ [n]) = (glue c l ++ String c n)%string.
Proof.
  induction l as [|p l IH]; [congruence|]. intros _. destruct l as [|q l]; [reflexivity|].
  rewrite <- app_comm_cons, !glue_cons, IH by (cbn; discriminate).
  rewrite !sapp_assoc. reflexivity.
Qed.

Lemma concat_cons (a : string) l : concat "" (a :: l) = (a ++ concat "" l)%string.
Proof. destruct l; cbn; [rewrite sapp_nil|]; reflexivity. Qed.
Lemma show_block b : bp_show b = glue "." (block_parts b).
Proof.
  unfold bp_show, block_parts. destruct b as [p l]; cbn [bp_peripheral bp_path].
  revert p; induction l as [|q l IH]; intros p.
  - cbn. apply sapp_nil.
  - cbn [map]. rewrite concat_cons, glue_cons by discriminate.
    rewrite <- (IH q). cbn. reflexivity.
Qed.
Lemma show_register r : rg_show r = glue "." (register_parts r).
Proof. unfold rg_show, register_parts. rewrite glue_snoc, show_block by discriminate. reflexivity. Qed.
Lemma register_parts_ne r : register_parts r <> [].
Proof. unfold register_parts, block_parts. discriminate. Qed.
Lemma show_field f : fp_show f = glue "." (field_parts f).
Proof. unfold fp_show, field_parts. rewrite glue_snoc, show_register by apply register_parts_ne. reflexivity. Qed.
Lemma field_parts_ne r : field_parts r <> [].
Proof. unfold field_parts, register_parts, block_parts. discriminate. Qed.
Lemma show_enum e : ep_show e = glue "." (enum_parts e).
Proof. unfold ep_show, enum_parts. rewrite glue_snoc, show_field by apply field_parts_ne. reflexivity. Qed.

Lemma strs_eqb_eq a b : strs_eqb a b = true <-> a = b.
Proof.
  revert b; induction a as [|x a IH]; intros [|y b]; cbn; try (split; congruence).
  rewrite andb_true_iff, seqb_eq, IH. split; [intros [-> ->]; reflexivity|intros [= -> ->]; auto].
Qed.
Lemma bp_eqb_eq a b : bp_eqb a b = true <-> a = b.
Proof.
  unfold bp_eqb. rewrite andb_true_iff, seqb_eq, strs_eqb_eq. destruct a, b; cbn.
  split; [intros [-> ->]; reflexivity|intros [= -> ->]; auto].
Qed.
Lemma rg_eqb_eq a b : rg_eqb a b = true <-> a = b.
Proof.
  unfold rg_eqb. rewrite andb_true_iff, seqb_eq, bp_eqb_eq. destruct a, b; cbn.
  split; [intros [-> ->]; reflexivity|intros [= -> ->]; auto].
Qed.
Lemma fp_eqb_eq a b : fp_eqb a b = true <-> a = b.
Proof.
  unfold fp_eqb. rewrite andb_true_iff, seqb_eq, rg_eqb_eq. destruct a, b; cbn.
  split; [intros [-> ->]; reflexivity|intros [= -> ->]; auto].
Qed.
Lemma ep_eqb_eq a b : ep_eqb a b = true <-> a = b.
Proof.
  unfold ep_eqb. rewrite andb_true_iff, seqb_eq, fp_eqb_eq. destruct a, b; cbn.
  split; [intros [-> ->]; reflexivity|intros [= -> ->]; auto].
Qed.

Lemma zip_same_eq a b : List.length a = List.length b -> (zip_same a b = true <-> a = b).
Proof.
  revert b; induction a as [|x a IH]; intros [|y b] H; try discriminate; cbn; [split; reflexivity|].
  injection H as H. rewrite andb_true_iff, seqb_eq, IH by exact H.
  split; [intros [-> ->]; reflexivity|intros [= -> ->]; auto].
Qed.
Lemma bp_eq_str_cut b s : bp_eq_str b s = true <-> cut "." s (block_parts b).
Proof.
  rewrite cut_split. unfold bp_eq_str, block_parts.
  destruct (Nat.eqb_spec (List.length (split "." s)) (List.length (bp_path b) + 1)) as [E|E]; cbn [negb].
  - destruct (split "." s) as [|p l]; [cbn in E; lia|]. cbn in E.
    rewrite andb_true_iff, seqb_eq, zip_same_eq by lia.
    split; [intros [-> ->]; reflexivity|intros [= -> ->]; auto].
  - split; [discriminate|]. intros H. rewrite <- H in E. cbn in E. lia.
Qed.

Lemma rsplit_once_none c s : rsplit_once c s = None <-> free_of c s.
Proof.
  unfold free_of. induction s as [|a s IH]; [cbn; tauto|].
  cbn [rsplit_once list_ascii_of_string]. destruct (rsplit_once c s) as [[x y]|] eqn:E.
  - split; [discriminate|]. intros H. exfalso.
    assert (K : ~ In c (list_ascii_of_string s)) by (intros I; apply H; right; exact I).
    apply IH in K. discriminate.
  - destruct (Ascii.eqb_spec a c) as [->|N].
    + split; [discriminate|]. intros H. exfalso. apply H. left. reflexivity.
    + split; [|reflexivity]. intros _ [H|H]; [congruence|]. apply (proj1 IH); auto.
Qed.
Lemma rsplit_once_spec c s x y :
  rsplit_once c s = Some (x, y) <-> s = (x ++ String c y)%string /\ free_of c y.
Proof.
  revert x y; induction s as [|a s IH]; intros x y.
  - split; [discriminate|]. intros [H _]. destruct x; discriminate.
  - cbn [rsplit_once]. destruct (rsplit_once c s) as [[x' y']|] eqn:E.
    + specialize (IH x' y'). destruct (proj1 IH eq_refl) as [Hs Hf]. split.
      * intros [= <- <-]. split; [cbn; congruence|exact Hf].
      * intros [H F]. destruct x as [|b x]; cbn in H.
        -- injection H as -> H. subst s. exfalso. subst y. apply F.
           clear. induction x'; cbn; auto.
        -- injection H as -> H. assert (E2 : rsplit_once c s = Some (x, y)).
           { rewrite E. clear -H Hs F Hf. subst s.
             assert (K : forall x x' y y', (x' ++ String c y' = x ++ String c y)%string ->
                        free_of c y -> free_of c y' -> x' = x /\ y' = y).
             { clear. induction x as [|a x IHx]; intros [|b x'] y y' H F F'; cbn in H.
               - injection H as ->. auto.
               - injection H as -> H. subst y. exfalso. apply F. clear. induction x'; cbn; auto.
               - injection H as -> H. subst y'. exfalso. apply F'. clear. induction x; cbn; auto.
               - injection H as -> H. destruct (IHx _ _ _ H F F') as [-> ->]. auto. }
             destruct (K _ _ _ _ H F Hf) as [-> ->]. reflexivity. }
           rewrite E in E2. injection E2 as -> ->. reflexivity.
    + pose proof (proj1 (rsplit_once_none _ _) E) as F0. destruct (Ascii.eqb_spec a c) as [->|N].
      * split.
        -- intros [= <- <-]. split; [reflexivity|exact F0].
        -- intros [H F]. destruct x as [|b x]; cbn in H; [congruence|].
           injection H as -> H. exfalso. subst s. apply F0. clear. induction x; cbn; auto.
      * split; [discriminate|]. intros [H F]. destruct x as [|b x]; cbn in H; [congruence|].
        injection H as -> H. exfalso. subst s. apply F0. clear. induction x; cbn; auto.
Qed.

Lemma cut_snoc c s l n : l <> [] ->
  (cut c s (l ++ [n]) <-> exists x, s = (x ++ String c n)%string /\ free_of c n /\ cut c x l).
Proof.
  intros N. unfold cut. rewrite glue_snoc by exact N. split.
  - intros [_ [H F]]. apply Forall_app in F. destruct F as [F1 F2]. exists (glue c l).
    inversion F2; subst. conjs; auto.
  - intros [x [H [F [_ [G F1]]]]]. conjs; [destruct l; discriminate|congruence|].
    apply Forall_app. auto.
Qed.
Section LastPart.
  Context {A : Type}.
  Variables (eqs : A -> string -> bool) (parts : A -> list string).
  Hypothesis NE : forall a, parts a <> [].
  Hypothesis EQ : forall a s, eqs a s = true <-> cut "." s (parts a).
  Lemma last_part a n s :
    match rsplit_once "." s with
    | Some (x, y) => seqb n y && eqs a x
    | None => false
    end = true <-> cut "." s (parts a ++ [n]).
  Proof using NE EQ.
    rewrite cut_snoc by apply NE. destruct (rsplit_once "." s) as [[x y]|] eqn:E.
    - rewrite andb_true_iff, seqb_eq, EQ. apply rsplit_once_spec in E. destruct E as [-> F]. split.
      + intros [-> C]. exists x. auto.
      + intros [x' [H [F' C]]].
        assert (E1 : rsplit_once "." (x ++ String "." y) = Some (x, y)) by (apply rsplit_once_spec; auto).
        assert (E2 : rsplit_once "." (x' ++ String "." n) = Some (x', n)) by (apply rsplit_once_spec; auto).
        rewrite H, E2 in E1. injection E1 as -> ->. auto.
    - split; [discriminate|]. intros [x [-> [F C]]]. apply rsplit_once_none in E. exfalso. apply E.
      clear. induction x; cbn; auto.
  Qed.
End LastPart.
Lemma rg_eq_str_cut r s : rg_eq_str r s = true <-> cut "." s (register_parts r).
Proof. apply (last_part bp_eq_str block_parts); [discriminate|apply bp_eq_str_cut]. Qed.
Lemma fp_eq_str_cut r s : fp_eq_str r s = true <-> cut "." s (field_parts r).
Proof. apply (last_part rg_eq_str register_parts); [apply register_parts_ne|apply rg_eq_str_cut]. Qed.
Lemma ep_eq_str_cut r s : ep_eq_str r s = true <-> cut "." s (enum_parts r).
Proof. apply (last_part fp_eq_str field_parts); [apply field_parts_ne|apply fp_eq_str_cut]. Qed.

(** ** Parsing *)
Lemma bp_parse_vec_total v : v <> [] -> exists o n, bp_parse_vec v = Ok (o, n).
Proof.
  intros N. destruct (pop_last v N) as [i [z [E _]]]. unfold bp_parse_vec. rewrite E. cbn.
  destruct i; eauto.
Qed.
Lemma bp_parse_vec_spec v o n : bp_parse_vec v = Ok (o, n) <-> v = optional_parts block_parts o ++ [n].
Proof.
  unfold bp_parse_vec. split.
  - destruct (pop v) as [[i z]|] eqn:E; [|discriminate]. apply pop_spec in E. cbn.
    destruct i as [|p l]; intros [= <- <-]; subst v; reflexivity.
  - intros E. apply pop_spec in E. rewrite E. cbn. destruct o as [[p l]|]; reflexivity.
Qed.
Lemma bp_parse_str_spec s o n :
  bp_parse_str s = Ok (o, n) <-> cut "." s (optional_parts block_parts o ++ [n]).
Proof. unfold bp_parse_str. rewrite bp_parse_vec_spec, cut_split. split; congruence. Qed.
Lemma bp_parse_str_total s : exists o n, bp_parse_str s = Ok (o, n).
Proof. apply bp_parse_vec_total, split_nonempty. Qed.

Lemma fp_parse_vec_spec v o n :
  fp_parse_vec v = Ok (o, n) <-> v = optional_parts register_parts o ++ [n].
Proof.
  unfold fp_parse_vec. split.
  - destruct (pop v) as [[i z]|] eqn:E; [|discriminate]. apply pop_spec in E. cbn.
    destruct i as [|p l] eqn:Ei; [intros [= <- <-]; subst v; reflexivity|]. rewrite <- Ei in *.
    replace (is_nil i) with false by (subst i; reflexivity). cbn.
    destruct (bp_parse_vec_total i) as [ob [rn Eb]]; [subst i; discriminate|].
    rewrite Eb. cbn. destruct ob as [b|]; [|discriminate]. cbn. intros [= <- <-].
    apply bp_parse_vec_spec in Eb. subst v. rewrite Eb. reflexivity.
  - intros E. apply pop_spec in E. rewrite E. cbn. destruct o as [r|]; [|reflexivity].
    cbn [optional_parts]. unfold register_parts.
    destruct (is_nil (block_parts (rg_block r) ++ [rg_name r])) eqn:N; [discriminate|].
    replace (bp_parse_vec (block_parts (rg_block r) ++ [rg_name r])) with
      (@Ok (option block_path * string) (Some (rg_block r), rg_name r))
      by (symmetry; apply bp_parse_vec_spec; reflexivity).
    cbn. destruct r; reflexivity.
Qed.
Lemma fp_parse_str_spec s o n :
  fp_parse_str s = Ok (o, n) <-> cut "." s (optional_parts register_parts o ++ [n]).
Proof. unfold fp_parse_str. rewrite fp_parse_vec_spec, cut_split. split; congruence. Qed.
Lemma fp_parse_str_bad s : 
  (exists a b, cut "." s [a; b]) <-> fp_parse_str s = Panic Unwrap.
Proof.
  unfold fp_parse_str. setoid_rewrite cut_split. unfold fp_parse_vec. split.
  - intros [a [b <-]]. reflexivity.
  - pose proof (split_nonempty "." s) as N. destruct (pop_last _ N) as [i [z [E Es]]]. rewrite E. cbn.
    destruct i as [|p l] eqn:Ei; [discriminate|]. rewrite <- Ei in *.
    replace (is_nil i) with false by (subst i; reflexivity). cbn.
    destruct (bp_parse_vec_total i) as [ob [rn Eb]]; [subst i; discriminate|].
    rewrite Eb. cbn. destruct ob as [b|]; [discriminate|]. intros _.
    apply bp_parse_vec_spec in Eb. rewrite Es, Eb. exists rn, z. reflexivity.
Qed.
Lemma fp_parse_str_cases s :
  (exists o n, fp_parse_str s = Ok (o, n)) \/ fp_parse_str s = Panic Unwrap.
Proof.
  unfold fp_parse_str, fp_parse_vec.
  pose proof (split_nonempty "." s) as N. destruct (pop_last _ N) as [i [z [E Es]]]. rewrite E. cbn.
  destruct i as [|p l]; [left; cbn; eauto|]. cbn [is_nil].
  destruct (bp_parse_vec_total (p :: l)) as [ob [rn Eb]]; [discriminate|].
  rewrite Eb. cbn. destruct ob as [b|]; [left; cbn; eauto|right; reflexivity].
Qed.
Lemma cut_glue c l : l <> [] -> Forall (free_of c) l -> cut c (glue c l) l.
Proof. unfold cut; auto. Qed.

Lemma bp_show_parse b n : dotless (block_parts b ++ [n]) ->
  bp_parse_str (bp_show (new_cluster b n)) = Ok (Some b, n).
Proof.
  intros D. apply bp_parse_str_spec. rewrite show_block.
  replace (block_parts (new_cluster b n)) with (block_parts b ++ [n]) by (destruct b; reflexivity).
  apply cut_glue; [discriminate|exact D].
Qed.
Lemma rg_show_parse r : dotless (register_parts r) ->
  bp_parse_str (rg_show r) = Ok (Some (rg_block r), rg_name r).
Proof. intros D. apply bp_parse_str_spec. rewrite show_register. apply cut_glue; [discriminate|exact D]. Qed.
Lemma fp_show_parse f : dotless (field_parts f) ->
  fp_parse_str (fp_show f) = Ok (Some (fp_register f), fp_name f).
Proof.
  intros D. apply fp_parse_str_spec. rewrite show_field.
  apply cut_glue; [apply field_parts_ne|exact D].
Qed.
Lemma bp_name_cluster b n : bp_name (new_cluster b n) = Ok n /\ bp_parent (new_cluster b n) = Some b.
Proof.
  unfold bp_name, bp_parent, new_cluster. cbn [bp_path bp_peripheral].
  assert (E : pop (bp_path b ++ [n]) = Some (bp_path b, n)) by (apply pop_spec; reflexivity).
  rewrite E. destruct b; auto.
Qed.
