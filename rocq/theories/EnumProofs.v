(** Proofs about enumeration texts and trimming of plain texts. *)
From Verif Require Import BaseFacts Types Num NumProofs.

Ltac enum_tac :=
  intros s x; split;
  [ let H := fresh in intros H; revert H;
    match goal with |- ?p s = _ -> _ => unfold p end;
    repeat match goal with
      | |- context [seqb s ?t] =>
          let E := fresh in destruct (seqb s t) eqn:E;
          [apply seqb_eq in E; subst s; intros [= <-]; reflexivity | clear E]
      end; discriminate
  | intros ->; destruct x; reflexivity ].

Lemma access_text : forall s x, access_parse s = Some x <-> s = access_str x.
Proof. enum_tac. Qed.
Lemma usage_text : forall s x, usage_parse s = Some x <-> s = usage_str x.
Proof. enum_tac. Qed.
Lemma data_type_text : forall s x, data_type_parse s = Some x <-> s = data_type_str x.
Proof. enum_tac. Qed.
Lemma endian_text : forall s x, endian_parse s = Some x <-> s = endian_str x.
Proof. enum_tac. Qed.
Lemma read_action_text : forall s x, read_action_parse s = Some x <-> s = read_action_str x.
Proof. enum_tac. Qed.
Lemma mwv_text : forall s x, mwv_parse s = Some x <-> s = mwv_str x.
Proof. enum_tac. Qed.
Lemma protection_text : forall s x, protection_parse s = Some x <-> s = protection_str x.
Proof. enum_tac. Qed.
Lemma ab_usage_text : forall s x, ab_usage_parse s = Some x <-> s = ab_usage_str x.
Proof. enum_tac. Qed.

(** Texts of visible ASCII characters are not changed by trimming. *)
Definition visible (c : ascii) : bool := (33 <=? byte c) && (byte c <=? 126).

Lemma ws_front_visible c s : visible c = true -> ws_front (String c s) = 0%nat.
Proof.
  unfold visible, ws_front. intros H.
  replace (((9 <=? byte c) && (byte c <=? 13)) || (byte c =? 32)) with false by lia.
  destruct s as [|b s]; [reflexivity|].
  replace ((byte c =? 194) && ((byte b =? 133) || (byte b =? 160))) with false by lia.
  destruct s as [|d s]; [reflexivity|].
  replace (byte c =? 225) with false by lia. replace (byte c =? 226) with false by lia.
  replace (byte c =? 227) with false by lia. reflexivity.
Qed.

Lemma trim_start_visible c s : visible c = true -> trim_start (String c s) = String c s.
Proof. intros H. unfold trim_start. cbn [trim_start_go]. now rewrite ws_front_visible. Qed.

Lemma trim_end_visible s : sforall visible s = true -> trim_end s = s.
Proof.
  induction s as [|c s IH]; cbn [sforall trim_end]; [auto|].
  rewrite andb_true_iff. intros [Hc Hs]. rewrite trim_start_visible by assumption.
  cbn [str_empty]. now rewrite IH.
Qed.

Lemma trim_visible s : sforall visible s = true -> trim s = s.
Proof.
  intros H. unfold trim. assert (E : trim_start s = s).
  { destruct s as [|c s]; [reflexivity|]. cbn [sforall] in H. apply andb_true_iff in H as [Hc _].
    now apply trim_start_visible. }
  rewrite E. now apply trim_end_visible.
Qed.

Lemma digit_visible c : is_digit c = true -> visible c = true.
Proof. unfold is_digit, visible. lia. Qed.
Lemma hex_visible c : is_alnum_digit c = true -> visible c = true.
Proof. unfold is_alnum_digit, is_digit, visible. lia. Qed.
Lemma zeros_visible k : sforall visible (zeros k) = true.
Proof. induction k as [|k IH]; [reflexivity|]. cbn [zeros sforall]. rewrite IH. reflexivity. Qed.

Lemma to_string_visible n : sforall visible (to_string n) = true.
Proof. eapply sforall_impl; [apply digit_visible|apply to_string_digits]. Qed.

Lemma hex_text_visible u w n : sforall visible (hex u w n) = true.
Proof.
  unfold hex, pad0. rewrite !sforall_app, zeros_visible.
  rewrite (sforall_impl is_alnum_digit visible (fmt_radix u 16 n)); [reflexivity|apply hex_visible|apply fmt_hex_digits].
Qed.

Lemma format_visible f n : sforall visible (format_number n f) = true.
Proof.
  destruct f; cbn [format_number]; try apply hex_text_visible.
  - destruct (u32_max <? n); apply hex_text_visible.
  - destruct (u32_max <? n); apply hex_text_visible.
  - apply to_string_visible.
  - rewrite sforall_app. rewrite (sforall_impl is_digit visible (fmt_radix false 2 n)); [reflexivity|apply digit_visible|].
    apply fmt_digits. lia.
Qed.

Lemma format_trim f n : trim (format_number n f) = format_number n f.
Proof. apply trim_visible, format_visible. Qed.

Lemma format_trim_parse bound f n : n < bound -> parse_num bound (trim (format_number n f)) = Ok n.
Proof. intros H. rewrite format_trim. now apply format_parse. Qed.
