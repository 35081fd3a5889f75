From Verif Require Import Base BaseFacts Num NumProofs Types Arrays Xml Parse SpecNum SpecArray ArrayProofs
  SpecText SpecXml TrimProofs XmlFacts.

Lemma last_char_app s c : last_char (s ++ String c "") = Some c.
Proof. induction s as [|x s IH]; [reflexivity|]. cbn. destruct (s ++ String c "")%string eqn:E; [destruct s; discriminate|exact IH]. Qed.
Lemma drop_last_app s c : drop_last (s ++ String c "") = s.
Proof. induction s as [|x s IH]; [reflexivity|]. cbn. destruct (s ++ String c "")%string eqn:E; [destruct s; discriminate|now rewrite IH]. Qed.
Lemma last_char_split s c : last_char s = Some c -> s = (drop_last s ++ String c "")%string.
Proof.
  induction s as [|x s IH]; [discriminate|]. cbn. destruct s as [|y s]; [now intros [= ->]|].
  intros H. cbn [append]. f_equal. now apply IH.
Qed.

Lemma bit_range_of_ok m h l t : l <= h -> h < pow32 -> h - l + 1 < pow32 ->
  bit_range_of m h l t = Ok {| br_offset := l; br_width := h - l + 1; br_type := t |}.
Proof.
  intros A B C. unfold bit_range_of. destruct (N.ltb_spec h l); [lia|].
  unfold sub32, sub_w. destruct (N.leb_spec l h); [|lia]. cbn [bind].
  unfold add32, add_w. destruct (N.ltb_spec (h - l + 1) pow32); [reflexivity|lia].
Qed.
Lemma bit_range_of_reversed m h l t : h < l -> bit_range_of m h l t = Err EInvalidBitRangeSize.
Proof. intros A. unfold bit_range_of. now rewrite (proj2 (N.ltb_lt h l) A). Qed.
Lemma bit_range_of_full m t : bit_range_of m 4294967295 0 t =
  match m with Debug => Panic Overflow | Release => Ok {| br_offset := 0; br_width := 0; br_type := t |} end.
Proof. destruct m; reflexivity. Qed.

(** The bracket notation. *)
Definition brackets (t : string) : res (N * N) :=
  match t with
  | String "[" rest =>
      match last_char t with
      | Some "]"%char =>
          match split ":" (drop_last rest) with
          | [] => Err EInvalidBitRangeSyntax
          | a :: more =>
              let* msb := ok_or (parse_dec pow32 a) EInvalidBitRangeParse in
              match more with
              | [] => Err EInvalidBitRangeSyntax
              | b :: _ =>
                  let* lsb := ok_or (parse_dec pow32 b) EInvalidBitRangeParse in
                  Ok (msb, lsb)
              end
          end
      | _ => Err EInvalidBitRangeSyntax
      end
  | _ => Err EInvalidBitRangeSyntax
  end.
Lemma brackets_ok t msb lsb : brackets t = Ok (msb, lsb) <->
  exists body a b rest, t = ("[" ++ body ++ "]")%string /\ cut ":" body (a :: b :: rest) /\
    signed (digits_with (digit 10) 10) a msb /\ signed (digits_with (digit 10) 10) b lsb /\
    msb < pow32 /\ lsb < pow32.
Proof.
  split.
  - unfold brackets. destruct t as [|c rest]; [discriminate|]. intros H.
    destruct (Ascii.eqb_spec c "[") as [->|Nc].
    2:{ exfalso. destruct c as [[] [] [] [] [] [] [] []]; try discriminate H. now apply Nc. }
    destruct (last_char (String "[" rest)) as [e|] eqn:L; [|discriminate].
    destruct (Ascii.eqb_spec e "]") as [->|Ne].
    2:{ exfalso. destruct e as [[] [] [] [] [] [] [] []]; try discriminate H. now apply Ne. }
    destruct (split ":" (drop_last rest)) as [|a [|b more]] eqn:S; [discriminate| |].
    { apply bind_ok in H as (x & _ & H). discriminate. }
    destruct (parse_dec pow32 a) as [x|] eqn:A; [|discriminate]. cbn [ok_or bind] in H.
    destruct (parse_dec pow32 b) as [y|] eqn:B; [|discriminate]. cbn [ok_or bind] in H. injection H as <- <-.
    apply parse_dec_signed in A; [|reflexivity]. apply parse_dec_signed in B; [|reflexivity].
    exists (drop_last rest), a, b, more. split.
    { apply last_char_split in L. destruct rest as [|r rest]; [discriminate|].
      cbn [drop_last append] in L |- *. injection L as L. now rewrite <- L. }
    split; [now apply cut_split|]. tauto.
  - intros (body & a & b & rest & -> & C & A & B & LA & LB). apply cut_split in C.
    cbn [append]. unfold brackets.
    assert (L : last_char (String "[" (body ++ "]")) = Some "]"%char) by apply (last_char_app (String "[" body)).
    rewrite L, drop_last_app, <- C.
    rewrite (proj2 (parse_dec_signed pow32 a msb eq_refl)) by auto.
    rewrite (proj2 (parse_dec_signed pow32 b lsb eq_refl)) by auto. reflexivity.
Qed.
Lemma brackets_no_panic t p : brackets t <> Panic p.
Proof.
  unfold brackets. destruct t as [|c rest]; [discriminate|].
  destruct c as [[] [] [] [] [] [] [] []]; try discriminate.
  destruct (last_char _) as [e|]; [|discriminate].
  destruct e as [[] [] [] [] [] [] [] []]; try discriminate.
  destruct (split _ _) as [|a [|b more]]; [discriminate| |];
    (destruct (parse_dec pow32 a); [|discriminate]); try discriminate.
  cbn. destruct (parse_dec pow32 b); discriminate.
Qed.

(** The two ends written, when some are. *)
Definition ends_parse (n : xml) : res (N * N * bit_range_type) :=
  match get_child "bitRange" n with
  | Some range =>
      let* t := ok_or (text range) EInvalidBitRangeEmpty in
      let* e := brackets t in Ok (e, BRT_BitRange)
  | None =>
      match get_child "lsb" n, get_child "msb" n with
      | Some lsb, Some msb =>
          let* h := map_err EInvalidBitRangeMsbLsb (num_parse pow32 msb) in
          let* l := map_err EInvalidBitRangeMsbLsb (num_parse pow32 lsb) in
          Ok (h, l, BRT_MsbLsb)
      | _, _ => Err EInvalidBitRangeSyntax
      end
  end.
Definition has_ends (n : xml) : bool :=
  is_some (get_child "bitRange" n) || (is_some (get_child "lsb" n) && is_some (get_child "msb" n)).
Definition size_parse (n : xml) : res bit_range :=
  match get_child "bitOffset" n, get_child "bitWidth" n with
  | Some offset, Some width =>
      let* o := map_err EInvalidBitRangeParse (num_parse pow32 offset) in
      let* w := map_err EInvalidBitRangeParse (num_parse pow32 width) in
      Ok {| br_offset := o; br_width := w; br_type := BRT_OffsetWidth |}
  | _, _ => Err EInvalidBitRangeSyntax
  end.
Lemma bit_range_parse_eq m n : bit_range_parse m n =
  if has_ends n then let* e := ends_parse n in let '(h, l, t) := e in bit_range_of m h l t
  else size_parse n.
Proof.
  unfold bit_range_parse, has_ends, ends_parse, size_parse.
  destruct (get_child "bitRange" n) as [r|] eqn:R; cbn [is_some orb].
  - destruct (text r) as [t|]; [|reflexivity]. cbn [ok_or bind]. unfold brackets.
    destruct t as [|c rest]; [reflexivity|].
    destruct c as [[] [] [] [] [] [] [] []]; try reflexivity.
    destruct (last_char _) as [e|]; [|reflexivity].
    destruct e as [[] [] [] [] [] [] [] []]; try reflexivity.
    destruct (split _ _) as [|a [|b more]]; [reflexivity| |];
      (destruct (parse_dec pow32 a); [|reflexivity]); try reflexivity.
    cbn. destruct (parse_dec pow32 b); reflexivity.
  - destruct (get_child "lsb" n) as [l|], (get_child "msb" n) as [h|]; cbn [is_some andb]; try reflexivity.
    rewrite !bind_assoc. destruct (map_err _ (num_parse pow32 h)); try reflexivity. cbn [bind].
    rewrite !bind_assoc. destruct (map_err _ (num_parse pow32 l)); reflexivity.
Qed.

Lemma map_err_ok {A} e (r : res A) a : map_err e r = Ok a <-> r = Ok a.
Proof. destruct r; cbn; split; congruence. Qed.
Lemma map_err_panic {A} e (r : res A) p : map_err e r = Panic p <-> r = Panic p.
Proof. destruct r; cbn; split; congruence. Qed.

Lemma ends_written n h l t : ends_parse n = Ok (h, l, t) <-> written_ends n h l t.
Proof.
  unfold ends_parse. split.
  - destruct (get_child "bitRange" n) as [r|] eqn:R.
    + intros H. apply bind_ok in H as (s & S & H). apply bind_ok in H as ([h' l'] & B & H).
      injection H as <- <- <-. destruct (text r) as [s'|] eqn:T; [|discriminate]. injection S as ->.
      apply brackets_ok in B as (body & a & b & rest & -> & C & A & B & LA & LB).
      apply (we_bit_range n _ _ r body a b rest); auto; (now apply get_child_first) || (now apply text_node).
    + destruct (get_child "lsb" n) as [x|] eqn:X; [|discriminate].
      destruct (get_child "msb" n) as [y|] eqn:Y; [|discriminate].
      intros H. apply bind_ok in H as (h' & H1 & H). apply bind_ok in H as (l' & H2 & H).
      injection H as <- <- <-. apply map_err_ok in H1, H2. apply num_parse_number in H1, H2; try reflexivity.
      apply (we_msb_lsb n _ _ y x); auto; (now apply get_child_none) || (now apply get_child_first).
  - intros [r body a b rest F T C A B LA LB|hn ln NB FH FL H L].
    + apply get_child_first in F. rewrite F. apply text_node in T. rewrite T. cbn [ok_or bind].
      rewrite (proj2 (brackets_ok _ h l)); [reflexivity|]. exists body, a, b, rest. tauto.
    + apply get_child_none in NB. apply get_child_first in FH, FL. rewrite NB, FH, FL.
      apply num_parse_number in H, L; try reflexivity.
      change (2 ^ 32) with pow32 in *. rewrite H. cbn [map_err bind]. rewrite L. reflexivity.
Qed.
Lemma written_has_ends n h l t : written_ends n h l t -> has_ends n = true.
Proof.
  unfold has_ends. intros [r body a b rest F|hn ln NB FH FL].
  - apply get_child_first in F. now rewrite F.
  - apply get_child_first in FH, FL. rewrite FH, FL. apply Bool.orb_true_r.
Qed.
Lemma size_written n o w : (has_ends n = false /\ size_parse n =
    Ok {| br_offset := o; br_width := w; br_type := BRT_OffsetWidth |}) <-> written_size n o w.
Proof.
  unfold written_size. rewrite <- !get_child_none.
  assert (HE : has_ends n = false <->
     get_child "bitRange" n = None /\ (get_child "lsb" n = None \/ get_child "msb" n = None)).
  { unfold has_ends. destruct (get_child "bitRange" n), (get_child "lsb" n), (get_child "msb" n); cbn;
      intuition discriminate. }
  rewrite HE. unfold size_parse. split.
  - intros ((NB & NE) & H). split; [exact NB|]. split; [exact NE|].
    destruct (get_child "bitOffset" n) as [x|] eqn:X; [|discriminate].
    destruct (get_child "bitWidth" n) as [y|] eqn:Y; [|discriminate].
    apply bind_ok in H as (o' & H1 & H). apply bind_ok in H as (w' & H2 & H). injection H as <- <-.
    apply map_err_ok in H1, H2. apply num_parse_number in H1, H2; try reflexivity.
    exists x, y. rewrite <- !get_child_first. auto.
  - intros (NB & NE & x & y & X & Y & H1 & H2). split; [auto|].
    apply get_child_first in X, Y. rewrite X, Y.
    apply num_parse_number in H1, H2; try reflexivity.
    change (2 ^ 32) with pow32 in *. rewrite H1. cbn [map_err bind]. rewrite H2. reflexivity.
Qed.

(** ** Results *)
Lemma written_bounds n h l t : written_ends n h l t -> h < pow32 /\ l < pow32.
Proof.
  intros [r body a b rest F T C A B LA LB|hn ln NB FH FL (sh & _ & _ & H) (sl & _ & _ & L)]; auto.
Qed.
Lemma bits_ok m n b : bit_range_parse m n = Ok b ->
  (exists h l t, written_ends n h l t /\ l <= h /\ ~ (l = 0 /\ h = 4294967295) /\
     b = {| br_offset := l; br_width := h - l + 1; br_type := t |}) \/
  (exists t, written_ends n 4294967295 0 t /\ m = Release /\ b = {| br_offset := 0; br_width := 0; br_type := t |}) \/
  (exists o w, written_size n o w /\ b = {| br_offset := o; br_width := w; br_type := BRT_OffsetWidth |}).
Proof.
  rewrite bit_range_parse_eq. destruct (has_ends n) eqn:E.
  - intros H. apply bind_ok in H as ([[h l] t] & W & H). apply ends_written in W.
    destruct (written_bounds _ _ _ _ W) as [B1 B2]. unfold pow32 in *.
    destruct (N.ltb_spec h l) as [R|R]; [rewrite bit_range_of_reversed in H by exact R; discriminate|].
    destruct (N.eq_dec l 0) as [->|Nl]; [destruct (N.eq_dec h 4294967295) as [->|Nh]|].
    + right; left. rewrite bit_range_of_full in H. destruct m; [discriminate|]. injection H as <-. eauto.
    + left. rewrite bit_range_of_ok in H by (unfold pow32; lia). injection H as <-. exists h, 0, t. conjs; auto. lia.
    + left. rewrite bit_range_of_ok in H by (unfold pow32; lia). injection H as <-. exists h, l, t. conjs; auto. lia.
  - intros H. right; right.
    assert (T : exists o w, b = {| br_offset := o; br_width := w; br_type := BRT_OffsetWidth |}).
    { unfold size_parse in H. destruct (get_child "bitOffset" n); [|discriminate].
      destruct (get_child "bitWidth" n); [|discriminate].
      apply bind_ok in H as (o' & H1 & H). apply bind_ok in H as (w' & H2 & H). injection H as <-. eauto. }
    destruct T as (o & w & ->). exists o, w. split; [|reflexivity]. apply size_written. auto.
Qed.
Lemma bits_ends m n h l t : written_ends n h l t -> bit_range_parse m n = bit_range_of m h l t.
Proof.
  intros W. rewrite bit_range_parse_eq, (written_has_ends _ _ _ _ W). apply ends_written in W. now rewrite W.
Qed.
Lemma bits_size m n o w : written_size n o w ->
  bit_range_parse m n = Ok {| br_offset := o; br_width := w; br_type := BRT_OffsetWidth |}.
Proof. intros W. apply size_written in W as [E S]. now rewrite bit_range_parse_eq, E. Qed.
Lemma bits_panic m n p : bit_range_parse m n = Panic p ->
  m = Debug /\ p = Overflow /\ exists t, written_ends n 4294967295 0 t.
Proof.
  rewrite bit_range_parse_eq. destruct (has_ends n) eqn:E.
  - destruct (ends_parse n) as [[[h l] t]|e|q] eqn:W; [|discriminate|].
    + cbn [bind]. apply ends_written in W. destruct (written_bounds _ _ _ _ W) as [B1 B2]. unfold pow32 in *.
      destruct (N.ltb_spec h l) as [R|R]; [rewrite bit_range_of_reversed by exact R; discriminate|].
      destruct (N.eq_dec l 0) as [->|Nl]; [destruct (N.eq_dec h 4294967295) as [->|Nh]|].
      * rewrite bit_range_of_full. destruct m; [|discriminate]. intros H. injection H as <-. eauto.
      * rewrite bit_range_of_ok by (unfold pow32; lia). discriminate.
      * rewrite bit_range_of_ok by (unfold pow32; lia). discriminate.
    + exfalso. unfold ends_parse in W. destruct (get_child "bitRange" n) as [r|].
      * destruct (text r) as [s|]; [|discriminate]. cbn [ok_or bind] in W.
        destruct (brackets s) as [[a b]| |q'] eqn:B; try discriminate. now apply brackets_no_panic in B.
      * destruct (get_child "lsb" n) as [x|]; [|discriminate]. destruct (get_child "msb" n) as [y|]; [|discriminate].
        destruct (num_parse pow32 y) as [a| |q'] eqn:A; try discriminate; [|now apply num_parse_no_panic in A].
        cbn [map_err bind] in W.
        destruct (num_parse pow32 x) as [b| |q'] eqn:B; try discriminate. now apply num_parse_no_panic in B.
  - intros H. exfalso. unfold size_parse in H.
    destruct (get_child "bitOffset" n) as [x|]; [|discriminate]. destruct (get_child "bitWidth" n) as [y|]; [|discriminate].
    destruct (num_parse pow32 x) as [a| |q'] eqn:A; try discriminate; [|now apply num_parse_no_panic in A].
    cbn [map_err bind] in H.
    destruct (num_parse pow32 y) as [b| |q'] eqn:B; try discriminate. now apply num_parse_no_panic in B.
Qed.
