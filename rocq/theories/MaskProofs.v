(** Proofs about bit masks. *)
From Verif Require Import BaseFacts Types Arrays SpecArray.

Lemma ones_bits w k : N.testbit (N.shiftr (pow64 - 1) (64 - w)) k = (k <? N.min w 64) \/ w > 64.
Proof.
  destruct (N.leb_spec w 64) as [H|H]; [left|right; lia].
  replace (N.min w 64) with w by lia.
  rewrite N.shiftr_spec' . change (pow64 - 1) with (N.ones 64).
  destruct (N.ltb_spec k w).
  - apply N.ones_spec_low. lia.
  - apply N.ones_spec_high. lia.
Qed.
Lemma shl_bits a s k : N.testbit (N.shiftl a s mod pow64) k = (k <? 64) && (s <=? k) && N.testbit a (k - s).
Proof.
  change pow64 with (2 ^ 64). destruct (N.ltb_spec k 64); cbn [andb].
  - rewrite N.mod_pow2_bits_low by assumption.
    destruct (N.leb_spec s k); cbn [andb].
    + now rewrite N.shiftl_spec_high'.
    + now rewrite N.shiftl_spec_low.
  - now rewrite N.mod_pow2_bits_high.
Qed.

Lemma field_info_bitmask_ok m f : maskable_info f -> exists v, field_info_bitmask m f = Ok v /\
  forall k, N.testbit v k = true <-> bits_of (br_offset (f_bit_range f)) (br_width (f_bit_range f)) k /\ k < 64.
Proof.
  intros [Hw Ho]. unfold field_info_bitmask, sub32. rewrite sub_w_ok by lia. cbn [bind].
  unfold shr64. replace (64 - br_width (f_bit_range f) <? 64) with true by lia. cbn [bind].
  unfold shl64. replace (br_offset (f_bit_range f) <? 64) with true by lia.
  eexists. split; [reflexivity|]. intros k. rewrite shl_bits.
  unfold bits_of. set (o := br_offset (f_bit_range f)) in *. set (w := br_width (f_bit_range f)) in *.
  destruct (ones_bits w (k - o)) as [->|]; lia.
Qed.
Lemma field_info_bitmask_debug f v : field_info_bitmask Debug f = Ok v -> maskable_info f.
Proof.
  unfold field_info_bitmask, maskable_info, sub32. intros H.
  apply bind_ok in H as (s & Hs & H). apply sub_w_debug in Hs as [Hw ->].
  apply bind_ok in H as (a & Ha & H). unfold shr64 in Ha. unfold shl64 in H.
  destruct (N.ltb_spec (64 - br_width (f_bit_range f)) 64); [|discriminate].
  destruct (N.ltb_spec (br_offset (f_bit_range f)) 64); [|discriminate]. lia.
Qed.

Lemma bitmask_loop_ok m mask incr is bits : (forall i, In i is -> i * incr < 64) ->
  exists v, bitmask_loop m mask incr is bits = Ok v /\
  forall k, N.testbit v k = true <-> N.testbit bits k = true \/
    exists i, In i is /\ k < 64 /\ i * incr <= k /\ N.testbit mask (k - i * incr) = true.
Proof.
  revert bits; induction is as [|i is IH]; intros bits H; cbn [bitmask_loop].
  - exists bits. split; [reflexivity|]. intros k. split; [auto|]. intros [K|(i & [] & _)]; assumption.
  - assert (Hi := H i (or_introl eq_refl)).
    unfold mul32. rewrite mul_w_ok by (unfold pow32; lia). cbn [bind].
    unfold shl64. replace (i * incr <? 64) with true by lia. cbn [bind].
    destruct (IH (N.lor bits (N.shiftl mask (i * incr) mod pow64))) as (v & E & Hv).
    { intros j Hj. apply H. now right. }
    exists v. split; [assumption|]. intros k. rewrite Hv, N.lor_spec, shl_bits, orb_true_iff, !andb_true_iff, N.ltb_lt, N.leb_le.
    split.
    + intros [[K|K]|(j & Hj & K)]; [now left| |right; exists j; split; [now right|assumption]].
      right. exists i. split; [now left|]. tauto.
    + intros [K|(j & [<-|Hj] & K1 & K2 & K3)]; [now left; left| |right; eauto].
      left; right. tauto.
Qed.
Lemma bitmask_loop_debug mask incr is bits v : bitmask_loop Debug mask incr is bits = Ok v ->
  forall i, In i is -> i * incr < 64.
Proof.
  revert bits; induction is as [|i is IH]; intros bits H j Hj; [destruct Hj|]. cbn [bitmask_loop] in H.
  apply bind_ok in H as (s & Hs & H). apply mul_w_debug in Hs as [_ ->].
  apply bind_ok in H as (x & Hx & H). unfold shl64 in Hx.
  destruct (N.ltb_spec (i * incr) 64); [|discriminate].
  destruct Hj as [<-|Hj]; [assumption|]. eapply IH; eassumption.
Qed.

Lemma field_bitmask_ok m f : maskable f -> exists v, field_bitmask m f = Ok v /\
  forall k, N.testbit v k = true <-> field_covers f k /\ k < 64.
Proof.
  destruct f as [f|f d]; cbn [field_bitmask maskable field_covers]; intros H.
  - now apply field_info_bitmask_ok.
  - destruct H as [Hf Hd]. destruct (field_info_bitmask_ok m f Hf) as (mask & -> & Hm). cbn [bind].
    destruct (bitmask_loop_ok m mask (de_increment d) (upto (de_dim d)) 0) as (v & E & Hv).
    { intros i Hi. apply Hd. now apply in_upto. }
    exists v. split; [assumption|]. intros k. rewrite Hv, N.bits_0. unfold bits_of in *. split.
    + intros [?|(i & Hi & H1 & H2 & H3)]; [discriminate|]. apply in_upto in Hi. apply Hm in H3.
      split; [exists i; lia|lia].
    + intros [(i & Hi & H1) H2]. right. exists i. rewrite in_upto, Hm. lia.
Qed.
Lemma field_bitmask_debug f v : field_bitmask Debug f = Ok v -> maskable f.
Proof.
  destruct f as [f|f d]; cbn [field_bitmask maskable]; intros H.
  - now apply field_info_bitmask_debug in H.
  - apply bind_ok in H as (mask & Hm & H). split; [now apply field_info_bitmask_debug in Hm|].
    intros i Hi. eapply bitmask_loop_debug; [eassumption|]. now apply in_upto.
Qed.

(** Masks are plain arithmetic: the only failure is a panic. *)
Lemma field_info_bitmask_no_err m f e : field_info_bitmask m f <> Err e.
Proof.
  unfold field_info_bitmask, sub32, sub_w, shr64, shl64.
  destruct m, (_ <=? _); cbn [bind]; try discriminate; destruct (_ <? 64); cbn [bind]; try discriminate;
  destruct (_ <? 64); discriminate.
Qed.
Lemma bitmask_loop_no_err m mask incr is bits e : bitmask_loop m mask incr is bits <> Err e.
Proof.
  revert bits; induction is as [|i is IH]; intros bits; cbn [bitmask_loop]; [discriminate|].
  unfold mul32, mul_w, shl64. destruct m, (_ <? pow32); cbn [bind]; try discriminate;
  destruct (_ <? 64); cbn [bind]; try discriminate; apply IH.
Qed.
Lemma field_bitmask_no_err m f e : field_bitmask m f <> Err e.
Proof.
  destruct f as [f|f d]; cbn [field_bitmask]; [apply field_info_bitmask_no_err|].
  destruct (field_info_bitmask m f) eqn:E; cbn [bind]; try discriminate; [apply bitmask_loop_no_err|].
  now apply field_info_bitmask_no_err in E.
Qed.
Lemma register_loop_no_err m fs acc e : register_bitmask_loop m fs acc <> Err e.
Proof.
  revert acc; induction fs as [|f fs IH]; intros acc; cbn [register_bitmask_loop]; [discriminate|].
  destruct (field_bitmask m f) eqn:E; cbn [bind]; try discriminate; [apply IH|].
  now apply field_bitmask_no_err in E.
Qed.

Lemma register_loop_ok m fs acc : Forall maskable fs -> exists v, register_bitmask_loop m fs acc = Ok v /\
  forall k, N.testbit v k = true <-> N.testbit acc k = true \/ (k < 64 /\ exists f, In f fs /\ field_covers f k).
Proof.
  intros H; revert acc; induction H as [|f fs Hf _ IH]; intros acc; cbn [register_bitmask_loop].
  - exists acc. split; [reflexivity|]. intros k. split; [auto|]. intros [K|(_ & f & [] & _)]; assumption.
  - destruct (field_bitmask_ok m f Hf) as (x & -> & Hx). cbn [bind].
    destruct (IH (N.lor acc x)) as (v & E & Hv). exists v. split; [assumption|].
    intros k. rewrite Hv, N.lor_spec, orb_true_iff, Hx. split.
    + intros [[K|[K1 K2]]|(K1 & g & K2 & K3)]; [now left|right|right]; (split; [assumption|]).
      * exists f. split; [now left|assumption].
      * exists g. split; [now right|assumption].
    + intros [K|(K1 & g & [<-|K2] & K3)]; [now left; left|left; right; auto|right; eauto].
Qed.
Lemma register_loop_debug fs acc v : register_bitmask_loop Debug fs acc = Ok v -> Forall maskable fs.
Proof.
  revert acc; induction fs as [|f fs IH]; intros acc H; [constructor|]. cbn [register_bitmask_loop] in H.
  apply bind_ok in H as (x & Hx & H). constructor; [now apply field_bitmask_debug in Hx|eauto].
Qed.

Lemma field_bitmask_panic f : (exists p, field_bitmask Debug f = Panic p) <-> ~ maskable f.
Proof.
  split.
  - intros [p H] Hm. destruct (field_bitmask_ok Debug f Hm) as (v & E & _). congruence.
  - intros H. destruct (field_bitmask Debug f) as [v|e|p] eqn:E; [|now apply field_bitmask_no_err in E|eauto].
    exfalso. apply H. now apply field_bitmask_debug in E.
Qed.
Lemma register_bitmask_ok m r : Forall maskable (r_fields_iter r) -> exists v, register_bitmask m r = Ok v /\
  forall k, N.testbit v k = true <-> k < 64 /\ exists f, In f (r_fields_iter r) /\ field_covers f k.
Proof.
  intros H. destruct (register_loop_ok m _ 0 H) as (v & E & Hv). exists v. split; [exact E|].
  intros k. rewrite Hv, N.bits_0. intuition discriminate.
Qed.
Lemma register_bitmask_panic r :
  (exists p, register_bitmask Debug r = Panic p) <-> ~ Forall maskable (r_fields_iter r).
Proof.
  unfold register_bitmask. split.
  - intros [p H] Hm. destruct (register_loop_ok Debug _ 0 Hm) as (v & E & _). congruence.
  - intros H. destruct (register_bitmask_loop Debug (r_fields_iter r) 0) as [v|e|p] eqn:E;
      [|now apply register_loop_no_err in E|eauto].
    exfalso. apply H. now apply register_loop_debug in E.
Qed.
Lemma register_bitmask_empty m r : r_fields_iter r = [] -> register_bitmask m r = Ok 0.
Proof. intros H. unfold register_bitmask. now rewrite H. Qed.
Lemma bitmask_zero_width : exists f, br_width (f_bit_range f) = 0 /\
  field_info_bitmask Release f = Ok (2 ^ 64 - 1) /\ forall k, ~ field_covers (Single f) k.
Proof.
  exists {| f_name := "F"; f_description := None; f_bit_range := br_from_offset_width 0 0; f_access := None;
     f_mwv := None; f_write_constraint := None; f_read_action := None; f_enumerated_values := []; f_derived_from := None |}.
  split; [reflexivity|]. split; [vm_compute; reflexivity|].
  intros k. cbn. unfold bits_of. lia.
Qed.
