(** C04, C05 and C55: bit ranges, and trimming of texts. *)
From Verif Require Import Base BaseFacts Num NumProofs EnumProofs Types Arrays Config Xml Encode Parse SpecNum SpecArray
  ArrayProofs SpecText SpecXml TrimProofs XmlFacts BitProofs.

(** C55: trimming removes exactly the Unicode white space at both ends. *)
Theorem C55_trim : forall s t, trim s = t <-> trimmed s t.
Proof. exact trim_spec. Qed.
Print Assumptions C55_trim.
Theorem C55_unique : forall s t t', trimmed s t -> trimmed s t' -> t = t'.
Proof. exact trim_unique. Qed.
Print Assumptions C55_unique.
Example C55_example : trim (utf8 8195 ++ " a b " ++ utf8 160)%string = "a b" /\
  trimmed (utf8 8195 ++ " a b " ++ utf8 160)%string "a b".
Proof. split; [reflexivity|]. apply trim_spec. reflexivity. Qed.

(** C05: the written ends are the bits read ... *)
Theorem C05_ends : forall m n msb lsb t,
  written_ends n msb lsb t -> lsb <= msb -> ~ (lsb = 0 /\ msb = 4294967295) ->
  exists b, bit_range_parse m n = Ok b /\ br_type b = t /\ br_offset b = lsb /\
    br_offset b + br_width b = msb + 1 /\ 1 <= br_width b < 2 ^ 32.
Proof.
  intros m n h l t W L F. destruct (written_bounds _ _ _ _ W) as [B1 B2].
  eexists. split; [rewrite (bits_ends m n h l t W); apply bit_range_of_ok; auto; unfold pow32 in *; lia|].
  cbn [br_type br_offset br_width]. unfold pow32 in *. conjs; try reflexivity; lia.
Qed.
Print Assumptions C05_ends.
(** ... a reversed range is refused ... *)
Theorem C05_reversed : forall m n msb lsb t,
  written_ends n msb lsb t -> msb < lsb -> bit_range_parse m n = Err EInvalidBitRangeSize.
Proof. intros m n h l t W L. rewrite (bits_ends m n h l t W). now apply bit_range_of_reversed. Qed.
Print Assumptions C05_reversed.
(** ... and so are offset and width, verbatim. *)
Theorem C05_size : forall m n o w, written_size n o w ->
  bit_range_parse m n = Ok {| br_offset := o; br_width := w; br_type := BRT_OffsetWidth |}.
Proof. exact bits_size. Qed.
Print Assumptions C05_size.
(** Nothing else is accepted. *)
Theorem C05_only : forall m n b, bit_range_parse m n = Ok b ->
  (exists msb, written_ends n msb (br_offset b) (br_type b) /\ br_offset b <= msb /\
     (br_offset b + br_width b = msb + 1 \/
      (m = Release /\ msb = 4294967295 /\ br_offset b = 0 /\ br_width b = 0))) \/
  (br_type b = BRT_OffsetWidth /\ written_size n (br_offset b) (br_width b)).
Proof.
  intros m n b H. apply bits_ok in H as [(h & l & t & W & L & F & ->)|[(t & W & M & ->)|(o & w & W & ->)]];
    cbn [br_offset br_width br_type].
  - left. exists h. conjs; auto. left. lia.
  - left. exists 4294967295. conjs; auto. lia.
  - right. auto.
Qed.
Print Assumptions C05_only.
(** The full 32-bit range is the one case that panics (debug) or wraps to width zero (release). *)
Theorem C05_full_range : forall n t, written_ends n 4294967295 0 t ->
  bit_range_parse Debug n = Panic Overflow /\
  bit_range_parse Release n = Ok {| br_offset := 0; br_width := 0; br_type := t |}.
Proof. intros n t W. rewrite !(bits_ends _ n _ _ t W), !bit_range_of_full. auto. Qed.
Print Assumptions C05_full_range.
Theorem C05_no_other_panic : forall m n p, bit_range_parse m n = Panic p ->
  m = Debug /\ p = Overflow /\ exists t, written_ends n 4294967295 0 t.
Proof. exact bits_panic. Qed.
Print Assumptions C05_no_other_panic.

Definition bits_elem (kids : list xml) : xml := Elem "field" [] kids.
Example C05_example :
  written_ends (bits_elem [new_node "bitRange" "[7:4:junk]"; new_node "lsb" "0"; new_node "msb" "1"]) 7 4 BRT_BitRange /\
  bit_range_parse Debug (bits_elem [new_node "bitRange" "[7:4:junk]"; new_node "lsb" "0"; new_node "msb" "1"])
    = Ok {| br_offset := 4; br_width := 4; br_type := BRT_BitRange |}.
Proof. split; [|reflexivity]. apply ends_written. reflexivity. Qed.
Example C05_example_size :
  written_size (bits_elem [new_node "lsb" "3"; new_node "bitWidth" " 0x10"; new_node "bitOffset" "2"]) 2 16.
Proof. apply size_written. split; reflexivity. Qed.
Example C05_example_reversed :
  written_ends (bits_elem [new_node "msb" "1"; new_node "lsb" "5"]) 1 5 BRT_MsbLsb.
Proof. apply ends_written. reflexivity. Qed.
Example C05_example_full :
  written_ends (bits_elem [new_node "bitRange" "[4294967295:0]"]) 4294967295 0 BRT_BitRange.
Proof. apply ends_written. reflexivity. Qed.

(** C04 *)
Definition bit_tags : list string := ["bitRange"; "lsb"; "msb"; "bitOffset"; "bitWidth"].
Definition no_bit_tags (l : list xml) : Prop := forall k x, In k bit_tags -> In x l -> ~ named k x.
Lemma no_bit_lacks k l : In k bit_tags -> no_bit_tags l -> lacks k l.
Proof.
  intros I H. unfold lacks. rewrite Forall_forall. intros x Hx. specialize (H k x I Hx).
  rewrite <- has_tag_named in H. destruct (has_tag k x); congruence.
Qed.
Lemma br_msb_ok m b : 1 <= br_width b -> br_offset b + br_width b < pow32 ->
  br_msb m b = Ok (br_offset b + br_width b - 1).
Proof.
  intros A B. unfold br_msb, add32, add_w. destruct (N.ltb_spec (br_offset b + br_width b) pow32); [|lia]. cbn [bind].
  unfold sub32, sub_w. destruct (N.leb_spec 1 (br_offset b + br_width b)); [reflexivity|lia].
Qed.
Lemma br_msb_edge b : 1 <= br_width b -> br_offset b < pow32 -> br_width b < pow32 -> br_offset b + br_width b = pow32 ->
  br_msb Release b = Ok (br_offset b + br_width b - 1).
Proof.
  intros A O W B. unfold br_msb, add32, add_w. destruct (N.ltb_spec (br_offset b + br_width b) pow32); [lia|]. cbn [bind].
  rewrite B. reflexivity.
Qed.
Lemma num_new_node bound k n : n < bound -> num_parse bound (new_node k (to_string n)) = Ok n.
Proof.
  intros H. unfold num_parse, get_text. rewrite text_new_node by apply fmt_nonempty. cbn [bind].
  rewrite trim_visible by apply to_string_visible. now apply parse_dec_text.
Qed.
Lemma bits_round m m' cfg b ch t a pre post h :
  br_offset b < pow32 -> br_width b < pow32 ->
  (opt_default (br_type b) (cfg_field_bit_range cfg) <> BRT_OffsetWidth ->
   1 <= br_width b /\ br_offset b + br_width b <= pow32 /\ br_msb m b = Ok h /\ h = br_offset b + br_width b - 1) ->
  no_bit_tags pre -> no_bit_tags post -> bit_range_encode m cfg b = Ok ch ->
  bit_range_parse m' (Elem t a (pre ++ ch ++ post)) = Ok {| br_offset := br_offset b; br_width := br_width b;
     br_type := opt_default (br_type b) (cfg_field_bit_range cfg) |}.
Proof.
  intros O L H Np Nq E. unfold bit_range_encode in E.
  assert (P : forall k l, In k bit_tags -> get_child k (Elem t a (pre ++ l)) = find_first (has_tag k) l).
  { intros k l I. unfold get_child. cbn [children]. apply find_lacks. now apply no_bit_lacks. }
  assert (Q : forall k, In k bit_tags -> find_first (has_tag k) post = None).
  { intros k I. apply find_lacks_all. now apply no_bit_lacks. }
  destruct (opt_default (br_type b) (cfg_field_bit_range cfg)).
  - destruct H as (W & S & M & ->); [discriminate|]. unfold br_text in E. rewrite M in E. cbn [bind] in E. injection E as <-.
    unfold br_lsb.
    rewrite (bits_ends m' _ (br_offset b + br_width b - 1) (br_offset b) BRT_BitRange).
    + rewrite bit_range_of_ok by (unfold pow32 in *; lia). repeat f_equal. lia.
    + apply ends_written. unfold ends_parse. rewrite P by (cbn; auto). cbn [app].
      rewrite find_new_node, text_new_node by discriminate. cbn [ok_or bind].
      rewrite (proj2 (brackets_ok _ (br_offset b + br_width b - 1) (br_offset b))); [reflexivity|].
      exists (to_string (br_offset b + br_width b - 1) ++ ":" ++ to_string (br_offset b))%string.
      eexists _, _, []. split; [rewrite !sapp_assoc; reflexivity|].
      assert (F : forall n, free_of ":" (to_string n)).
      { intros n. apply free_of_contains.
        generalize (to_string_digits n). generalize (to_string n) as s. clear. induction s as [|c s IH]; intros D; [reflexivity|].
        cbn in D |- *. apply andb_prop in D as [D1 D2]. rewrite (IH D2), Bool.orb_false_r.
        destruct (Ascii.eqb_spec c ":"); [subst; discriminate|reflexivity]. }
      split; [split; [discriminate|]; split; [reflexivity|]; repeat constructor; apply F|].
      pose proof (parse_dec_signed pow32) as D. unfold pow32 in *.
      conjs; try lia; eapply D; try reflexivity; apply parse_to_string; lia.
  - injection E as <-. apply bits_size. apply size_written.
    unfold has_ends, size_parse, dec_node. rewrite !P by (cbn; tauto).
    cbn [app]. rewrite !find_cons_new. seqbs. rewrite !Q by (cbn; tauto). split; [reflexivity|].
    rewrite !num_new_node by assumption. reflexivity.
  - destruct H as (W & S & M & ->); [discriminate|]. rewrite M in E. cbn [bind] in E. injection E as <-. unfold br_lsb, dec_node.
    rewrite (bits_ends m' _ (br_offset b + br_width b - 1) (br_offset b) BRT_MsbLsb).
    + rewrite bit_range_of_ok by (unfold pow32 in *; lia). repeat f_equal. lia.
    + apply ends_written. unfold ends_parse. rewrite !P by (cbn; tauto). cbn [app].
      rewrite !find_cons_new. seqbs. rewrite Q by (cbn; tauto).
      rewrite !num_new_node by (unfold pow32 in *; lia). reflexivity.
Qed.

(** Whatever notation is written, the same bits are read back. *)
Theorem C04_round_trip : forall m m' cfg b t a pre post,
  1 <= br_width b -> br_offset b + br_width b < 2 ^ 32 -> no_bit_tags pre -> no_bit_tags post ->
  exists ch, bit_range_encode m cfg b = Ok ch /\
    bit_range_parse m' (Elem t a (pre ++ ch ++ post)) =
      Ok {| br_offset := br_offset b; br_width := br_width b;
            br_type := opt_default (br_type b) (cfg_field_bit_range cfg) |}.
Proof.
  intros m m' cfg b t a pre post W L Np Nq.
  assert (E : exists ch, bit_range_encode m cfg b = Ok ch).
  { unfold bit_range_encode, br_text. destruct (opt_default _ _); rewrite ?br_msb_ok by assumption; cbn [bind]; eauto. }
  destruct E as [ch E]. exists ch. split; [exact E|].
  eapply bits_round with (m := m) (h := br_offset b + br_width b - 1); eauto; unfold pow32; try lia.
  intros _. conjs; try lia. now apply br_msb_ok.
Qed.
Print Assumptions C04_round_trip.
(** The offset/width notation carries any offset and width, and a release build any
    range whose most significant bit fits; *)
Theorem C04_offset_width : forall m m' cfg b t a pre post,
  opt_default (br_type b) (cfg_field_bit_range cfg) = BRT_OffsetWidth ->
  br_offset b < 2 ^ 32 -> br_width b < 2 ^ 32 -> no_bit_tags pre -> no_bit_tags post ->
  exists ch, bit_range_encode m cfg b = Ok ch /\
    bit_range_parse m' (Elem t a (pre ++ ch ++ post)) =
      Ok {| br_offset := br_offset b; br_width := br_width b; br_type := BRT_OffsetWidth |}.
Proof.
  intros m m' cfg b t a pre post T O W Np Nq.
  assert (E : exists ch, bit_range_encode m cfg b = Ok ch) by (unfold bit_range_encode; rewrite T; eauto).
  destruct E as [ch E]. exists ch. split; [exact E|]. rewrite <- T.
  eapply bits_round with (m := m) (h := 0); eauto. congruence.
Qed.
Print Assumptions C04_offset_width.
Theorem C04_release_edge : forall m' cfg b t a pre post,
  br_offset b < 2 ^ 32 -> 1 <= br_width b < 2 ^ 32 -> br_offset b + br_width b = 2 ^ 32 ->
  no_bit_tags pre -> no_bit_tags post ->
  exists ch, bit_range_encode Release cfg b = Ok ch /\
    bit_range_parse m' (Elem t a (pre ++ ch ++ post)) =
      Ok {| br_offset := br_offset b; br_width := br_width b;
            br_type := opt_default (br_type b) (cfg_field_bit_range cfg) |}.
Proof.
  intros m' cfg b t a pre post O W L Np Nq.
  assert (E : exists ch, bit_range_encode Release cfg b = Ok ch).
  { unfold bit_range_encode, br_text. destruct (opt_default _ _); rewrite ?br_msb_edge by (assumption || apply W); cbn [bind]; eauto. }
  destruct E as [ch E]. exists ch. split; [exact E|].
  eapply bits_round with (m := Release) (h := br_offset b + br_width b - 1); eauto; try apply W.
  intros _. unfold pow32. conjs; try lia. apply br_msb_edge; auto; apply W.
Qed.
Print Assumptions C04_release_edge.
(** ... while a debug build panics on that edge although the bits fit. *)
Theorem C04_debug_edge_refuted : exists cfg b,
  br_offset b < 2 ^ 32 /\ 1 <= br_width b < 2 ^ 32 /\ br_offset b + br_width b <= 2 ^ 32 /\
  bit_range_encode Debug cfg b = Panic Overflow.
Proof.
  exists config_default, {| br_offset := 4294967295; br_width := 1; br_type := BRT_BitRange |}.
  cbn [br_offset br_width]. conjs; try lia. reflexivity.
Qed.
Print Assumptions C04_debug_edge_refuted.
Example C04_example : exists ch,
  bit_range_encode Debug (set_field_bit_range (Some BRT_MsbLsb) config_default)
    {| br_offset := 8; br_width := 4; br_type := BRT_BitRange |} = Ok ch /\
  bit_range_parse Release (Elem "field" [] (new_node "name" "F" :: ch))
    = Ok {| br_offset := 8; br_width := 4; br_type := BRT_MsbLsb |}.
Proof. eexists. split; reflexivity. Qed.
