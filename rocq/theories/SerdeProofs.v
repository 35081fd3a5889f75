(** C50: what is written with serde is read back. *)
From Verif Require Import Base BaseFacts Num NumProofs EnumProofs TreeFacts Types Arrays SpecNum SpecArray ArrayProofs IndexProofs BitProofs
  SpecBuild SpecValidate SpecRound PropBits Serde SpecSerde.
Import ListNotations.

(** ** Entries *)
Lemma has_app k A B : has_key k (A ++ B) = has_key k A || has_key k B.
Proof. induction A as [|[k' v] A IH]; [reflexivity|]. cbn [app has_key]. now rewrite IH, Bool.orb_assoc. Qed.
Lemma has_cons k k' v B : has_key k ((k', v) :: B) = seqb k' k || has_key k B.
Proof. reflexivity. Qed.
Lemma has_opt {A} k k' (f : A -> data) o : seqb k' k = false -> has_key k (put_opt k' f o) = false.
Proof. intros H. destruct o; [|reflexivity]. cbn. now rewrite H. Qed.
Lemma has_list {A} k k' (f : A -> data) l : seqb k' k = false -> has_key k (put_list k' f l) = false.
Proof. intros H. destruct l; [reflexivity|]. cbn. now rewrite H. Qed.
Lemma has_rp k p : existsb (fun k' => seqb k' k) ["size"; "access"; "protection"; "resetValue"; "resetMask"]%string = false ->
  has_key k (rp_put p) = false.
Proof.
  cbn [existsb]. intros H. repeat (apply Bool.orb_false_elim in H as [? H]).
  unfold rp_put. now rewrite !has_app, !has_opt by assumption.
Qed.
Lemma entry_skip {A} k (f : data -> res A) es es' : has_key k es = false -> entry k f (es ++ es') = entry k f es'.
Proof.
  induction es as [|[k' v] es IH]; [reflexivity|]. cbn [has_key app entry]. intros H.
  apply Bool.orb_false_elim in H as [-> H]. auto.
Qed.
Lemma entry_pass {A} k (f : data -> res A) k' v es : seqb k' k = false -> entry k f ((k', v) :: es) = entry k f es.
Proof. intros H. cbn [entry]. now rewrite H. Qed.
Lemma entry_none {A} k (f : data -> res A) es : has_key k es = false -> entry k f es = Ok None.
Proof. intros H. rewrite <- (app_nil_r es). now rewrite entry_skip. Qed.
Lemma need_here {A} k (f : data -> res A) v a es : has_key k es = false -> f v = Ok a -> need k f ((k, v) :: es) = Ok a.
Proof. intros H E. unfold need. cbn [entry]. rewrite seqb_refl, E. cbn [bind]. rewrite H. reflexivity. Qed.
Lemma need_skip {A} k (f : data -> res A) es es' : has_key k es = false -> need k f (es ++ es') = need k f es'.
Proof. intros H. unfold need. now rewrite entry_skip. Qed.
Lemma need_pass {A} k (f : data -> res A) k' v es : seqb k' k = false -> need k f ((k', v) :: es) = need k f es.
Proof. intros H. unfold need. now rewrite entry_pass. Qed.
Lemma need_none {A} k (f : data -> res A) es : has_key k es = false -> need k f es = Err EDeserialize.
Proof. intros H. unfold need. now rewrite entry_none. Qed.
Lemma opt_skip {A} k (f : data -> res A) es es' : has_key k es = false -> take_opt k f (es ++ es') = take_opt k f es'.
Proof. intros H. unfold take_opt. now rewrite entry_skip. Qed.
Lemma opt_pass {A} k (f : data -> res A) k' v es : seqb k' k = false -> take_opt k f ((k', v) :: es) = take_opt k f es.
Proof. intros H. unfold take_opt. now rewrite entry_pass. Qed.
Lemma list_skip {A} k (f : data -> res A) es es' : has_key k es = false -> take_list k f (es ++ es') = take_list k f es'.
Proof. intros H. unfold take_list. now rewrite entry_skip. Qed.
Lemma list_pass {A} k (f : data -> res A) k' v es : seqb k' k = false -> take_list k f ((k', v) :: es) = take_list k f es.
Proof. intros H. unfold take_list. now rewrite entry_pass. Qed.

Definition solid (v : data) : Prop := v <> DNull.
Lemma opt_solid {A} (f : data -> res A) v a : solid v -> f v = Ok a -> opt f v = Ok (Some a).
Proof. intros S E. unfold opt. destruct v; try (now rewrite E). now destruct S. Qed.
Lemma opt_here {A B} k (f : data -> res A) (g : B -> data) (h : B -> A) o es : has_key k es = false ->
  opt_all (fun a => solid (g a) /\ f (g a) = Ok (h a)) o -> take_opt k f (put_opt k g o ++ es) = Ok (option_map h o).
Proof.
  intros H P. unfold take_opt. destruct o as [a|]; cbn [put_opt app].
  - destruct (P) as [S E]. cbn [entry]. rewrite seqb_refl, (opt_solid _ _ _ S E). cbn [bind]. now rewrite H.
  - now rewrite entry_none.
Qed.
Lemma opt_id {A} k (f : data -> res A) (g : A -> data) o es : has_key k es = false ->
  opt_all (fun a => solid (g a) /\ f (g a) = Ok a) o -> take_opt k f (put_opt k g o ++ es) = Ok o.
Proof. intros H P. rewrite (opt_here k f g (fun a => a)) by assumption. now destruct o. Qed.
Lemma list_here {A} k (f : data -> res A) (g : A -> data) l es : has_key k es = false ->
  Forall (fun a => f (g a) = Ok a) l -> take_list k f (put_list k g l ++ es) = Ok l.
Proof.
  intros H P. unfold take_list. destruct l as [|a l]; cbn [put_list app].
  - now rewrite entry_none.
  - cbn [entry]. rewrite seqb_refl. unfold seq_of. rewrite mapM_map.
    rewrite (mapM_all_ok _ (fun a => a)) by (apply Forall_forall; exact P). cbn [bind]. rewrite H, map_id. reflexivity.
Qed.
Lemma seq_here {A B} (f : data -> res A) (g : B -> data) (h : B -> A) l : Forall (fun a => f (g a) = Ok (h a)) l ->
  seq_of f (DSeq (map g l)) = Ok (map h l).
Proof. intros P. unfold seq_of. rewrite mapM_map. apply mapM_all_ok. now apply Forall_forall. Qed.
Notation dim_in := (dim_holds indexes_in).
Notation any_in := (any_holds indexes_in).
Notation field_in m := (field_holds (bits_in m)).
Notation register_in m := (register_holds indexes_in (bits_in m)).
Notation rc_in m := (rc_holds indexes_in (bits_in m)).
Notation peripheral_in m := (peripheral_holds indexes_in (bits_in m)).
Lemma all_opt {A} (P : A -> Prop) o : (forall a, P a) -> opt_all P o.
Proof. destruct o; cbn; auto. Qed.
Lemma has_app_f k A B : has_key k A = false -> has_key k B = false -> has_key k (A ++ B) = false.
Proof. intros H1 H2. now rewrite has_app, H1, H2. Qed.
Lemma has_cons_f k k' v B : seqb k' k = false -> has_key k B = false -> has_key k ((k', v) :: B) = false.
Proof. intros H1 H2. now rewrite has_cons, H1, H2. Qed.
Lemma entry_front {A} k (f : data -> res A) es es' : has_key k es' = false -> entry k f (es ++ es') = entry k f es.
Proof.
  intros H. induction es as [|[k' v] es IH]; cbn [app entry]; [now apply entry_none|].
  destruct (seqb k' k); [|exact IH]. now rewrite has_app, H, Bool.orb_false_r.
Qed.
Lemma need_front {A} k (f : data -> res A) es es' : has_key k es' = false -> need k f (es ++ es') = need k f es.
Proof. intros H. unfold need. now rewrite entry_front. Qed.

Ltac lacks := match goal with
  | |- has_key _ (_ ++ _) = false => apply has_app_f; lacks
  | |- has_key _ (_ :: _) = false => apply has_cons_f; [first [reflexivity | assumption]|lacks]
  | |- has_key _ [] = false => reflexivity
  | |- has_key _ (put_opt _ _ _) = false => apply has_opt; first [reflexivity | assumption]
  | |- has_key _ (put_list _ _ _) = false => apply has_list; first [reflexivity | assumption]
  | |- has_key _ (rp_put _) = false => apply has_rp; reflexivity
  | |- has_key _ ?p = false => first [assumption | match goal with H : forall k, _ -> has_key k p = false |- _ => apply H; reflexivity end]
  end.
(** Moves to the entry with the key being read. *)
Ltac look := cbn [app]; repeat match goal with
  | |- need _ _ (_ :: _) = _ => rewrite need_pass by reflexivity
  | |- take_opt _ _ (_ :: _) = _ => rewrite opt_pass by reflexivity
  | |- take_list _ _ (_ :: _) = _ => rewrite list_pass by reflexivity
  | |- need _ _ (_ ++ _) = _ => rewrite need_skip by lacks
  | |- take_opt _ _ (_ ++ _) = _ => rewrite opt_skip by lacks
  | |- take_list _ _ (_ ++ _) = _ => rewrite list_skip by lacks
  end.
(** One step of a reader: the first reader's result, then the rest. *)
Lemma step {A B} (x : res A) a (k : A -> res B) r : x = Ok a -> k a = r -> bind x k = r.
Proof. now intros ->. Qed.
Ltac next := eapply step; [look|].
Lemma end_opt {A B} k (f : data -> res A) (g : B -> data) (h : B -> A) o :
  opt_all (fun a => solid (g a) /\ f (g a) = Ok (h a)) o -> take_opt k f (put_opt k g o) = Ok (option_map h o).
Proof. intros H. rewrite <- (app_nil_r (put_opt _ _ _)). now apply opt_here. Qed.
Lemma end_id {A} k (f : data -> res A) (g : A -> data) o :
  opt_all (fun a => solid (g a) /\ f (g a) = Ok a) o -> take_opt k f (put_opt k g o) = Ok o.
Proof. intros H. rewrite <- (app_nil_r (put_opt _ _ _)). now apply opt_id. Qed.
Lemma end_list {A} k (f : data -> res A) (g : A -> data) l :
  Forall (fun a => f (g a) = Ok a) l -> take_list k f (put_list k g l) = Ok l.
Proof. intros H. rewrite <- (app_nil_r (put_list _ _ _)). now apply list_here. Qed.

(** ** Values *)
Lemma str_back s : solid (DStr s) /\ get_str (DStr s) = Ok s. Proof. split; [discriminate|reflexivity]. Qed.
Lemma bool_back b : solid (DBool b) /\ get_bool (DBool b) = Ok b. Proof. split; [discriminate|reflexivity]. Qed.
Lemma num_back bound n : n < bound -> solid (DNum n) /\ get_num bound (DNum n) = Ok n.
Proof. intros H. split; [discriminate|]. cbn [get_num]. apply N.ltb_lt in H. now rewrite H. Qed.
Lemma nums_back bound o : below bound o -> opt_all (fun n => solid (DNum n) /\ get_num bound (DNum n) = Ok n) o.
Proof. destruct o; cbn [below opt_all]; [apply num_back|trivial]. Qed.
Lemma access_back x : solid (put_access x) /\ get_access (put_access x) = Ok x.
Proof. split; [discriminate|]. now destruct x. Qed.
Lemma usage_back x : solid (put_usage x) /\ get_usage (put_usage x) = Ok x.
Proof. split; [discriminate|]. now destruct x. Qed.
Lemma protection_back x : solid (put_protection x) /\ get_protection (put_protection x) = Ok x.
Proof. split; [discriminate|]. now destruct x. Qed.
Lemma mwv_back x : solid (put_mwv x) /\ get_mwv (put_mwv x) = Ok x.
Proof. split; [discriminate|]. now destruct x. Qed.
Lemma read_action_back x : solid (put_read_action x) /\ get_read_action (put_read_action x) = Ok x.
Proof. split; [discriminate|]. now destruct x. Qed.
Lemma endian_back x : solid (put_endian x) /\ get_endian (put_endian x) = Ok x.
Proof. split; [discriminate|]. now destruct x. Qed.
Lemma ab_usage_back x : solid (put_ab_usage x) /\ get_ab_usage (put_ab_usage x) = Ok x.
Proof. split; [discriminate|]. now destruct x. Qed.
Lemma data_type_back x : solid (put_data_type x) /\ get_data_type (put_data_type x) = Ok x.
Proof. split; [discriminate|]. now destruct x. Qed.
Lemma wc_back w : constraint_fits w -> solid (wc_put w) /\ wc_get (wc_put w) = Ok w.
Proof.
  intros F. destruct w as [b|b|lo hi]; (split; [discriminate|]); try reflexivity.
  destruct F as [F1 F2]. cbn [wc_put wc_get]. change (seqb "range" "writeAsRead") with false.
  change (seqb "range" "useEnumeratedValues") with false. change (seqb "range" "range") with true. cbv iota. unfold struct_of.
  rewrite (need_here _ _ _ lo) by (reflexivity || now apply num_back). cbn [bind].
  rewrite need_pass by reflexivity. rewrite (need_here _ _ _ hi) by (reflexivity || now apply num_back). reflexivity.
Qed.

Lemma rp_back pre p post : props_in p ->
  (forall k, In k ["size"; "access"; "protection"; "resetValue"; "resetMask"]%string -> has_key k pre = false /\ has_key k post = false) ->
  rp_get (pre ++ rp_put p ++ post) = Ok p.
Proof.
  intros (P1 & P2 & P3) L.
  assert (L1 := L "size"%string (or_introl eq_refl)). assert (L2 := L "access"%string (or_intror (or_introl eq_refl))).
  assert (L3 := L "protection"%string). assert (L4 := L "resetValue"%string). assert (L5 := L "resetMask"%string).
  destruct L3 as [? ?]; [cbn; tauto|]. destruct L4 as [? ?]; [cbn; tauto|]. destruct L5 as [? ?]; [cbn; tauto|].
  destruct L1, L2. unfold rp_get, rp_put. rewrite <- !app_assoc.
  next; [apply opt_id; [lacks|now apply nums_back]|].
  next; [apply opt_id; [lacks|apply all_opt, access_back]|].
  next; [apply opt_id; [lacks|apply all_opt, protection_back]|].
  next; [apply opt_id; [lacks|now apply nums_back]|].
  next; [apply opt_id; [lacks|now apply nums_back]|]. now destruct p.
Qed.
Lemma ev_back e : value_in e -> ev_get (ev_put e) = Ok e.
Proof.
  intros F. unfold ev_get, ev_put, struct_of.
  next; [apply need_here; [lacks|reflexivity]|].
  next; [apply opt_id; [lacks|apply all_opt, str_back]|].
  next; [apply opt_id; [lacks|now apply nums_back]|].
  next; [apply end_id; apply all_opt, bool_back|]. now destruct e.
Qed.
Lemma evs_back e : values_in e -> evs_get (evs_put e) = Ok e.
Proof.
  intros F. unfold evs_get, evs_put, struct_of.
  next; [apply opt_id; [lacks|apply all_opt, str_back]|].
  next; [apply opt_id; [lacks|apply all_opt, usage_back]|].
  next; [apply opt_id; [lacks|apply all_opt, str_back]|].
  next; [apply end_list; eapply Forall_impl; [intros a; apply ev_back|exact F]|]. now destruct e.
Qed.
Lemma dai_back d : Forall value_in (dai_values d) -> solid (dai_put d) /\ dai_get (dai_put d) = Ok d.
Proof.
  intros F. split; [discriminate|]. unfold dai_get, dai_put, struct_of.
  next; [apply opt_id; [lacks|apply all_opt, str_back]|].
  eapply (step _ (dai_values d)); [look; apply need_here; [reflexivity|]|now destruct d].
  rewrite <- (map_id (dai_values d)) at 2. apply seq_here. eapply Forall_impl; [intros a; apply ev_back|exact F].
Qed.
Lemma dim_index_back l : indexes_in l -> dim_index_get (dim_index_put l) = Ok (Some l).
Proof.
  intros (N & C & D). unfold dim_index_get, dim_index_put. cbn [opt seq_of get_str bind].
  rewrite join_parse by assumption. reflexivity.
Qed.
Definition dim_keys : list string := ["dim"; "dimIncrement"; "dimIndex"; "dimName"; "dimArrayIndex"]%string.
Definition dimless (es : entries) : Prop := forall k, In k dim_keys -> has_key k es = false.
Definition among_dims (es : entries) : Prop := forall k, existsb (fun k' => seqb k' k) dim_keys = false -> has_key k es = false.
Lemma has_dims d : among_dims (de_put d).
Proof.
  intros k H. cbn [existsb dim_keys] in H. repeat (apply Bool.orb_false_elim in H as [? H]). unfold de_put. lacks.
Qed.
Lemma de_back d es : dim_in d -> dimless es ->
  de_get (de_put d ++ es) = match de_index d with Some _ => Ok d | None => Err EDeserialize end.
Proof.
  intros (F1 & F2 & F3 & F4) L. unfold de_get, de_put. rewrite <- !app_assoc.
  assert (L1 := L "dim"%string). assert (L2 := L "dimIncrement"%string). assert (L3 := L "dimIndex"%string).
  assert (L4 := L "dimName"%string). assert (L5 := L "dimArrayIndex"%string).
  specialize (L1 ltac:(cbn; tauto)). specialize (L2 ltac:(cbn; tauto)). specialize (L3 ltac:(cbn; tauto)).
  specialize (L4 ltac:(cbn; tauto)). specialize (L5 ltac:(cbn; tauto)). clear L.
  next; [apply need_here; [lacks|now apply num_back]|].
  next; [apply need_here; [lacks|now apply num_back]|].
  destruct (de_index d) as [l|] eqn:I; cbn [put_opt app].
  - next; [apply need_here; [lacks|now apply dim_index_back]|].
    next; [apply opt_id; [lacks|apply all_opt, str_back]|].
    next; [apply opt_id; [lacks|]|rewrite <- I; now destruct d].
    destruct (de_array_index d); [|exact Logic.I]. now apply dai_back.
  - rewrite need_none by lacks. reflexivity.
Qed.
Lemma dimless_get es : dimless es -> de_get es = Err EDeserialize.
Proof. intros L. unfold de_get. rewrite need_none by (apply L; cbn; tauto). reflexivity. Qed.

(** ** Elements that can be arrays *)
Section Any.
  Context {A : Type}.
  Variables (put : A -> res entries) (get : entries -> res A) (back : A -> A) (P : A -> Prop).
  Definition comes_back (a : A) : Prop := exists es, put a = Ok es /\ dimless es /\
    forall pre, among_dims pre -> get (pre ++ es) = Ok (back a).
  Hypothesis H : forall a, P a -> comes_back a.
  Lemma any_back x : any_in P x -> exists v, ma_put put x = Ok v /\ solid v /\ ma_get get v = Ok (b_any back x).
  Proof.
    destruct x as [a|a d]; cbn [any_holds ma_put b_any].
    - intros F. destruct (H _ F) as (es & -> & D & B). cbn [bind]. eexists. split; [reflexivity|]. split; [discriminate|].
      unfold ma_get, struct. rewrite dimless_get by exact D. pose proof (B [] (fun k _ => eq_refl)) as B'. cbn [app] in B'. now rewrite B'.
    - intros [F G]. destruct (H _ F) as (es & -> & D & B). cbn [bind]. eexists. split; [reflexivity|]. split; [discriminate|].
      unfold ma_get, struct. rewrite de_back by assumption.
      pose proof (B _ (has_dims d)) as B'. destruct (de_index d); now rewrite B'.
  Qed.
  Lemma any_list xs : Forall (any_in P) xs ->
    exists vs, mapM (ma_put put) xs = Ok vs /\ mapM (ma_get get) vs = Ok (map (b_any back) xs).
  Proof.
    induction 1 as [|x xs F _ IH]; [exists []; now split|].
    destruct (any_back _ F) as (v & E & _ & G). destruct IH as (vs & Es & Gs).
    exists (v :: vs). cbn [mapM map]. rewrite E, Es, G, Gs. now split.
  Qed.
End Any.

(** ** Bit ranges *)
Definition bit_width (m : mode) (h l : N) : res N := let* x := sub32 m h l in add32 m x 1.
Lemma from_brackets m t : br_from_bit_range m t =
  match brackets t with
  | Ok (h, l) => let* w := bit_width m h l in Ok (Some {| br_offset := l; br_width := w; br_type := BRT_BitRange |})
  | _ => Ok None
  end.
Proof.
  unfold br_from_bit_range, brackets, bit_width. destruct t as [|c rest]; [reflexivity|].
  destruct c as [[] [] [] [] [] [] [] []]; try reflexivity.
  destruct (last_char _) as [e|]; [|reflexivity].
  destruct e as [[] [] [] [] [] [] [] []]; try reflexivity.
  destruct (split _ _) as [|a [|b more]]; [reflexivity| |].
  - now destruct (parse_dec pow32 a).
  - destruct (parse_dec pow32 a); [|reflexivity]. cbn [ok_or bind]. destruct (parse_dec pow32 b); [|reflexivity].
    cbn [ok_or bind]. now rewrite bind_assoc.
Qed.
Lemma bit_width_ok m h l : l <= h -> h < pow32 -> h - l + 1 < pow32 -> bit_width m h l = Ok (h - l + 1).
Proof.
  intros H1 H2 H3. unfold bit_width, sub32, add32. rewrite sub_w_ok by exact H1. cbn [bind]. now rewrite add_w_ok.
Qed.
Lemma brackets_text h l : h < pow32 -> l < pow32 ->
  brackets ("[" ++ to_string h ++ ":" ++ to_string l ++ "]")%string = Ok (h, l).
Proof.
  intros Hh Hl. apply brackets_ok. exists (to_string h ++ ":" ++ to_string l)%string.
  eexists _, _, []. split; [rewrite !sapp_assoc; reflexivity|].
  assert (F : forall n, free_of ":" (to_string n)).
  { intros n. apply free_of_contains.
    generalize (to_string_digits n). generalize (to_string n) as s. clear. induction s as [|c s IH]; intros D; [reflexivity|].
    cbn in D |- *. apply andb_prop in D as [D1 D2]. rewrite (IH D2), Bool.orb_false_r.
    destruct (Ascii.eqb_spec c ":"); [subst; discriminate|reflexivity]. }
  split; [split; [discriminate|]; split; [reflexivity|]; repeat constructor; apply F|].
  pose proof (parse_dec_signed pow32) as D. unfold pow32 in *.
  conjs; try lia; eapply D; try reflexivity; apply parse_to_string; lia.
Qed.
Definition bit_keys : list string := ["bitRange"; "bitOffset"; "bitWidth"; "lsb"; "msb"]%string.
Lemma has_bits m b es k : br_put m b = Ok es -> existsb (fun k' => seqb k' k) bit_keys = false -> has_key k es = false.
Proof.
  intros E H. cbn [existsb bit_keys] in H. repeat (apply Bool.orb_false_elim in H as [? H]).
  unfold br_put in E. destruct (br_type b); [apply bind_ok in E as (t & _ & E)| |apply bind_ok in E as (h & _ & E)];
    injection E as <-; lacks.
Qed.
Lemma bits_msb m b : bits_in m b -> br_type b <> BRT_OffsetWidth -> br_msb m b = Ok (br_offset b + br_width b - 1).
Proof.
  intros (O & W & B) T. destruct (B T) as (W1 & S & D).
  destruct (N.lt_ge_cases (br_offset b + br_width b) pow32) as [L|L]; [now apply br_msb_ok|].
  assert (X : br_offset b + br_width b = pow32) by (unfold pow32 in *; lia).
  destruct m; [|now apply br_msb_edge]. specialize (D eq_refl). unfold pow32 in *. lia.
Qed.
Lemma br_back m m' b : bits_in m b -> exists es, br_put m b = Ok es /\
  forall pre post, (forall k, In k bit_keys -> has_key k pre = false /\ has_key k post = false) ->
    br_get m' (pre ++ es ++ post) = Ok b.
Proof.
  intros F. pose proof F as (O & W & B). unfold br_put. destruct (br_type b) eqn:T.
  - unfold br_text. rewrite bits_msb by (assumption || congruence). cbn [bind]. eexists. split; [reflexivity|].
    intros pre post K. assert (K1 := K "bitRange"%string ltac:(cbn; tauto)). destruct K1 as [K1 K1'].
    unfold br_get. rewrite need_skip by exact K1. cbn [app]. erewrite need_here by (exact K1' || reflexivity).
    destruct B as (W1 & S & _); [congruence|]. unfold br_lsb.
    rewrite from_brackets, brackets_text by (unfold pow32; lia). rewrite bit_width_ok by (unfold pow32; lia).
    cbn [bind ok_or]. rewrite <- T. replace (br_offset b + br_width b - 1 - br_offset b + 1) with (br_width b) by lia. now destruct b.
  - eexists. split; [reflexivity|]. intros pre post K.
    destruct (K "bitRange"%string ltac:(cbn; tauto)) as [K1 K1']. destruct (K "bitOffset"%string ltac:(cbn; tauto)) as [K2 K2'].
    destruct (K "bitWidth"%string ltac:(cbn; tauto)) as [K3 K3'].
    unfold br_get. rewrite need_none by lacks. cbn [app]. rewrite !need_skip by assumption.
    rewrite (need_here _ _ _ (br_offset b)) by (lacks || now apply num_back).
    rewrite need_pass by reflexivity.
    rewrite (need_here _ _ _ (br_width b)) by (lacks || now apply num_back). unfold br_from_offset_width. rewrite <- T. now destruct b.
  - rewrite bits_msb by (assumption || congruence). cbn [bind]. eexists. split; [reflexivity|]. intros pre post K.
    destruct (K "bitRange"%string ltac:(cbn; tauto)) as [K1 K1']. destruct (K "bitOffset"%string ltac:(cbn; tauto)) as [K2 K2'].
    destruct (K "lsb"%string ltac:(cbn; tauto)) as [K3 K3']. destruct (K "msb"%string ltac:(cbn; tauto)) as [K4 K4'].
    destruct B as (W1 & S & _); [congruence|].
    unfold br_get. rewrite need_none by lacks. rewrite need_none by lacks. cbn [app]. rewrite !need_skip by assumption. unfold br_lsb.
    rewrite (need_here _ _ _ (br_offset b)) by (lacks || now apply num_back).
    rewrite need_pass by reflexivity. rewrite (need_here _ _ _ (br_offset b + br_width b - 1)) by (lacks || (apply num_back; unfold pow32; lia)).
    unfold br_from_msb_lsb. pose proof (bit_width_ok m' (br_offset b + br_width b - 1) (br_offset b)) as X.
    unfold bit_width in X. rewrite <- bind_assoc, X by (unfold pow32; lia). cbn [bind]. rewrite <- T.
    replace (br_offset b + br_width b - 1 - br_offset b + 1) with (br_width b) by lia. now destruct b.
Qed.

(** ** Fields *)
Ltac dims_in := match goal with k : In _ dim_keys |- _ => cbn in k; repeat (destruct k as [<-|k]; [|]); try contradiction end.
Lemma field_back m m' f : field_in m f -> comes_back (field_put m) (field_get m') (fun f => f) f.
Proof.
  intros (F1 & F2 & F3). destruct (br_back m m' _ F1) as (br & E & B).
  pose proof (fun k => has_bits m _ _ k E) as Hb.
  unfold comes_back, field_put. rewrite E. cbn [bind]. eexists. split; [reflexivity|]. split.
  { intros k K. dims_in; solve [lacks]. }
  intros pre D. unfold among_dims in D. unfold field_get.
  next; [apply need_here; [lacks|reflexivity]|].
  next; [apply opt_id; [lacks|apply all_opt, str_back]|].
  eapply step.
  { cbn [app]. match goal with |- br_get m' (pre ++ ?x :: ?y ++ br ++ ?z) = _ =>
      replace (pre ++ x :: y ++ br ++ z) with ((pre ++ x :: y) ++ br ++ z) by (rewrite <- app_assoc; reflexivity) end.
    apply B. intros k K; cbn in K; repeat (destruct K as [<-|K]; [split; lacks|]); contradiction. }
  next; [apply opt_id; [lacks|apply all_opt, access_back]|].
  next; [apply opt_id; [lacks|apply all_opt, mwv_back]|].
  next; [apply opt_id; [lacks|destruct (f_write_constraint f); [now apply wc_back|exact I]]|].
  next; [apply opt_id; [lacks|apply all_opt, read_action_back]|].
  next; [apply list_here; [lacks|eapply Forall_impl; [intros a; apply evs_back|exact F3]]|].
  next; [apply end_id; apply all_opt, str_back|]. now destruct f.
Qed.

Definition prop_keys : list string := ["size"; "access"; "protection"; "resetValue"; "resetMask"]%string.
Lemma rp_skip es es' : (forall k, In k prop_keys -> has_key k es = false) -> rp_get (es ++ es') = rp_get es'.
Proof. intros H. unfold rp_get. now rewrite !opt_skip by (apply H; cbn; tauto). Qed.
Lemma rp_pass k v es : ~ In k prop_keys -> rp_get ((k, v) :: es) = rp_get es.
Proof.
  intros H. apply (rp_skip [(k, v)]). intros k' I. cbn. rewrite Bool.orb_false_r. apply seqb_neq. intros ->. auto.
Qed.
Lemma rp_here p es : props_in p -> (forall k, In k prop_keys -> has_key k es = false) -> rp_get (rp_put p ++ es) = Ok p.
Proof. intros P H. apply (rp_back [] p es P). intros k I. split; [reflexivity|]. now apply H. Qed.
Ltac each_key := let k := fresh "k" in let K := fresh "K" in
  intros k K; cbn in K; repeat (destruct K as [<-|K]; [solve [repeat split; lacks]|]); contradiction.
Ltac props := cbn [app]; repeat first
  [ rewrite rp_pass by (let X := fresh in intros X; cbn in X; intuition discriminate) | rewrite rp_skip by each_key ];
  apply rp_here; [assumption|each_key].

(** ** Registers and clusters *)
Lemma seq_solid l : solid (DSeq l). Proof. discriminate. Qed.
Lemma fields_back m m' r : register_in m r -> exists o, mapM_opt (mapM (ma_put (field_put m))) (r_fields r) = Ok o /\
  forall es, has_key "fields" es = false ->
    take_opt "fields" (seq_of (ma_get (field_get m'))) (put_opt "fields" DSeq o ++ es) = Ok (option_map (map b_field) (r_fields r)).
Proof.
  intros (_ & _ & _ & F). destruct (r_fields r) as [fs|]; cbn [mapM_opt opt_all option_map] in *.
  - destruct (any_list (field_put m) (field_get m') (fun f => f) (field_in m) (field_back m m') fs F) as (vs & E & G).
    rewrite E. cbn [bind]. eexists. split; [reflexivity|]. intros es K.
    rewrite (opt_here _ _ _ (fun _ => map b_field fs)); [reflexivity|exact K|]. split; [apply seq_solid|exact G].
  - eexists. split; [reflexivity|]. intros es K. cbn [put_opt app]. unfold take_opt. now rewrite entry_none.
Qed.
Lemma register_back m m' r : register_in m r -> comes_back (register_put m) (register_get m') b_register r.
Proof.
  intros F. destruct (fields_back m m' r F) as (o & E & G). destruct F as (F1 & F2 & F3 & _).
  unfold comes_back, register_put. rewrite E. cbn [bind]. eexists. split; [reflexivity|]. split.
  { intros k K. dims_in; solve [lacks]. }
  intros pre D. unfold among_dims in D. unfold register_get.
  next; [apply need_here; [lacks|reflexivity]|].
  do 4 (next; [apply opt_id; [lacks|apply all_opt, str_back]|]).
  next; [apply need_here; [lacks|now apply num_back]|].
  eapply step; [props|].
  next; [apply opt_id; [lacks|apply all_opt, data_type_back]|].
  next; [apply opt_id; [lacks|apply all_opt, mwv_back]|].
  next; [apply opt_id; [lacks|destruct (r_write_constraint r); [now apply wc_back|exact I]]|].
  next; [apply opt_id; [lacks|apply all_opt, read_action_back]|].
  next; [apply G; lacks|].
  next; [apply end_id; apply all_opt, str_back|]. reflexivity.
Qed.
Lemma cluster_back m m' (c : cluster_info) : cluster_in c ->
  Forall (fun rc => exists v, rc_put m rc = Ok v /\ rc_get m' v = Ok (b_rc rc)) (c_children c) ->
  comes_back (cluster_put (rc_put m)) (cluster_get (rc_get m')) (b_cluster (map b_rc (c_children c))) c.
Proof.
  intros (F1 & F2) K.
  assert (X : exists vs, mapM (rc_put m) (c_children c) = Ok vs /\ mapM (rc_get m') vs = Ok (map b_rc (c_children c))).
  { induction K as [|x xs (v & E & G) _ (vs & Es & Gs)]; [exists []; now split|].
    exists (v :: vs). cbn [mapM map]. rewrite E, Es, G, Gs. now split. }
  destruct X as (vs & E & G). unfold comes_back, cluster_put. rewrite E. cbn [bind]. eexists. split; [reflexivity|]. split.
  { intros k K'. dims_in; solve [lacks]. }
  intros pre D. unfold among_dims in D. unfold cluster_get.
  next; [apply need_here; [lacks|reflexivity]|].
  do 3 (next; [apply opt_id; [lacks|apply all_opt, str_back]|]).
  next; [apply need_here; [lacks|now apply num_back]|].
  eapply step; [props|].
  next; [apply need_here; [lacks|exact G]|].
  next; [apply end_id; apply all_opt, str_back|]. reflexivity.
Qed.
Lemma rc_back m m' rc : rc_in m rc -> exists v, rc_put m rc = Ok v /\ rc_get m' v = Ok (b_rc rc).
Proof.
  induction rc as [r|c IH] using rc_tree_ind; intros F.
  - assert (F' : any_in (register_in m) r) by now inversion F.
    destruct (any_back _ _ _ _ (register_back m m') _ F') as (v & E & S & G).
    cbn [rc_put b_rc]. rewrite E. cbn [bind]. eexists. split; [reflexivity|].
    cbn [rc_get]. change (seqb "register" "register") with true. cbv iota. now rewrite G.
  - assert (F' : any_in cluster_in c /\ Forall (rc_in m) (c_children (info c))) by (inversion F; now split).
    destruct F' as [F1 F2].
    assert (K : Forall (fun rc => exists v, rc_put m rc = Ok v /\ rc_get m' v = Ok (b_rc rc)) (c_children (info c))).
    { rewrite Forall_forall in *. intros x I. auto. }
    destruct (any_back (cluster_put (rc_put m)) (cluster_get (rc_get m')) (b_cluster (map b_rc (c_children (info c))))
                (fun i => i = info c /\ cluster_in i)) with (x := c) as (v & E & S & G).
    { intros i [-> P]. now apply cluster_back. }
    { destruct c; cbn in *; tauto. }
    cbn [rc_put b_rc]. rewrite E. cbn [bind]. eexists. split; [reflexivity|].
    cbn [rc_get]. change (seqb "cluster" "register") with false. change (seqb "cluster" "cluster") with true. cbv iota.
    now rewrite G.
Qed.

(** ** Peripherals *)
Lemma ab_back a : block_fits a -> ab_get (ab_put a) = Ok a.
Proof.
  intros (F1 & F2). unfold ab_get, ab_put, struct_of.
  next; [apply need_here; [lacks|now apply num_back]|].
  next; [apply need_here; [lacks|now apply num_back]|].
  next; [apply need_here; [lacks|apply ab_usage_back]|].
  next; [apply end_id; apply all_opt, protection_back|]. now destruct a.
Qed.
Lemma it_back i : it_value i < 2 ^ 32 -> it_get (it_put i) = Ok i.
Proof.
  intros F. unfold it_get, it_put, struct_of.
  next; [apply need_here; [lacks|reflexivity]|].
  next; [apply opt_id; [lacks|apply all_opt, str_back]|].
  next; [apply need_here; [reflexivity|now apply num_back]|]. now destruct i.
Qed.
Lemma registers_back m m' p : peripheral_in m p -> exists o, mapM_opt (mapM (rc_put m)) (p_registers p) = Ok o /\
  forall es, has_key "registers" es = false ->
    take_opt "registers" (seq_of (rc_get m')) (put_opt "registers" DSeq o ++ es) = Ok (option_map (map b_rc) (p_registers p)).
Proof.
  intros (_ & _ & _ & _ & F). destruct (p_registers p) as [rs|]; cbn [mapM_opt opt_all option_map] in *.
  - assert (X : exists vs, mapM (rc_put m) rs = Ok vs /\ mapM (rc_get m') vs = Ok (map b_rc rs)).
    { induction F as [|x xs F _ (vs & Es & Gs)]; [exists []; now split|].
      destruct (rc_back m m' x F) as (v & E & G). exists (v :: vs). cbn [mapM map]. rewrite E, Es, G, Gs. now split. }
    destruct X as (vs & E & G).
    rewrite E. cbn [bind]. eexists. split; [reflexivity|]. intros es K.
    rewrite (opt_here _ _ _ (fun _ => map b_rc rs)); [reflexivity|exact K|]. split; [apply seq_solid|exact G].
  - eexists. split; [reflexivity|]. intros es K. cbn [put_opt app]. unfold take_opt. now rewrite entry_none.
Qed.
Lemma peripheral_back m m' p : peripheral_in m p -> comes_back (peripheral_put m) (peripheral_get m') b_peripheral p.
Proof.
  intros F. destruct (registers_back m m' p F) as (o & E & G). destruct F as (F1 & F2 & F3 & F4 & _).
  unfold comes_back, peripheral_put. rewrite E. cbn [bind]. eexists. split; [reflexivity|]. split.
  { intros k K. dims_in; solve [lacks]. }
  intros pre D. unfold among_dims in D. unfold peripheral_get.
  next; [apply need_here; [lacks|reflexivity]|].
  do 8 (next; [apply opt_id; [lacks|apply all_opt, str_back]|]).
  next; [apply need_here; [lacks|now apply num_back]|].
  eapply step; [props|].
  next; [apply opt_id; [lacks|]|].
  { destruct (p_address_block p) as [bs|]; [|exact I]. split; [discriminate|]. rewrite <- (map_id bs) at 2. apply seq_here.
      eapply Forall_impl; [intros a; apply ab_back|exact F3]. }
  next; [apply list_here; [lacks|eapply Forall_impl; [intros a; apply it_back|exact F4]]|].
  next; [apply G; lacks|].
  next; [apply end_id; apply all_opt, str_back|]. reflexivity.
Qed.

(** ** Devices *)
Lemma cpu_back c : cpu_in c -> solid (cpu_put c) /\ cpu_get (cpu_put c) = Ok c.
Proof.
  intros (F1 & F2 & F3). split; [discriminate|]. unfold cpu_get, cpu_put, struct_of.
  next; [apply need_here; [lacks|reflexivity]|].
  next; [apply need_here; [lacks|reflexivity]|].
  next; [apply need_here; [lacks|apply endian_back]|].
  next; [apply need_here; [lacks|reflexivity]|].
  next; [apply need_here; [lacks|reflexivity]|].
  do 7 (next; [apply opt_id; [lacks|apply all_opt, bool_back]|]).
  next; [apply need_here; [lacks|now apply num_back]|].
  next; [apply need_here; [lacks|reflexivity]|].
  next; [apply opt_id; [lacks|now apply nums_back]|].
  next; [apply end_id; now apply nums_back|]. now destruct c.
Qed.
Lemma device_back m m' d : device_in m d -> exists v, device_put m d = Ok v /\ device_get m' v = Ok (b_device d).
Proof.
  intros (F1 & F2 & F3 & F4 & F5).
  destruct (any_list _ _ _ _ (peripheral_back m m') _ F5) as (vs & E & G).
  unfold device_put. rewrite E. cbn [bind]. eexists. split; [reflexivity|]. unfold device_get, struct.
  do 2 (next; [apply opt_id; [lacks|apply all_opt, str_back]|]).
  next; [apply need_here; [lacks|reflexivity]|].
  next; [apply opt_id; [lacks|apply all_opt, str_back]|].
  next; [apply need_here; [lacks|reflexivity]|].
  next; [apply need_here; [lacks|reflexivity]|].
  next; [apply opt_id; [lacks|apply all_opt, str_back]|].
  next; [apply opt_id; [lacks|destruct (d_cpu d); [now apply cpu_back|exact I]]|].
  do 2 (next; [apply opt_id; [lacks|apply all_opt, str_back]|]).
  next; [apply need_here; [lacks|now apply num_back]|].
  next; [apply need_here; [lacks|now apply num_back]|].
  eapply step; [props|].
  next; [apply need_here; [reflexivity|exact G]|]. reflexivity.
Qed.
