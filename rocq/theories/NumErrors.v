(** Proofs: which error a text that is not a number gives. *)
From Verif Require Import BaseFacts Num SpecNum NumProofs.

(** ** The digit loop *)
Lemma scan_spec base bound acc s k : 1 <= base -> acc < bound ->
  digits_scan base bound acc s = inr k <->
  match k with
  | IEmpty => False
  | IInvalidDigit => exists p c r v, s = (p ++ String c r)%string /\ digit_val base c = None /\ horner base acc p = Some v /\ v < bound
  | IPosOverflow => exists p r v, s = (p ++ r)%string /\ horner base acc p = Some v /\ bound <= v
  end.
Proof.
  intros Hb. revert acc; induction s as [|c s IH]; intros acc Ha; cbn [digits_scan].
  - split; [discriminate|]. destruct k; intros H; [easy|..].
    + destruct H as ([|? p] & c & r & v & E & _); discriminate.
    + destruct H as ([|? p] & r & v & E & H & Hv); [|discriminate]. cbn in H. injection H as <-. lia.
  - destruct (digit_val base c) as [d|] eqn:D.
    + set (a := acc * base + d) in *.
      assert (K : (if acc * base <? bound then if a <? bound then digits_scan base bound a s else inr IPosOverflow else inr IPosOverflow)
        = if a <? bound then digits_scan base bound a s else inr IPosOverflow).
      { destruct (N.ltb_spec (acc * base) bound); [reflexivity|]. destruct (N.ltb_spec a bound); [lia|reflexivity]. }
      cbv zeta. fold a. rewrite K. clear K. destruct (N.ltb_spec a bound) as [Hl|Hl].
      * rewrite IH by exact Hl. destruct k; [reflexivity|..]; split.
        -- intros (p & c' & r & v & -> & Hc & Hh & Hv). exists (String c p), c', r, v. cbn [horner append]. rewrite D. auto.
        -- intros ([|c0 p] & c' & r & v & E & Hc & Hh & Hv); cbn [append] in E; injection E as -> ->; [congruence|].
           cbn [horner] in Hh. rewrite D in Hh. exists p, c', r, v. auto.
        -- intros (p & r & v & -> & Hh & Hv). exists (String c p), r, v. cbn [horner append]. rewrite D. auto.
        -- intros ([|c0 p] & r & v & E & Hh & Hv).
           { cbn in Hh. injection Hh as <-. lia. }
           cbn [append] in E. injection E as -> ->. cbn [horner] in Hh. rewrite D in Hh. exists p, r, v. auto.
      * split.
        -- intros E. injection E as <-. exists (String c EmptyString), s, a. cbn [horner append]. rewrite D. auto.
        -- destruct k; [easy| |reflexivity]. intros ([|c0 p] & c' & r & v & E & Hc & Hh & Hv); cbn [append] in E; injection E as -> ->; [congruence|].
           cbn [horner] in Hh. rewrite D in Hh. apply horner_ge in Hh; [|exact Hb]. unfold a in Hl. lia.
    + split.
      * intros E. injection E as <-. exists EmptyString, c, s, acc. auto.
      * destruct k; [easy|reflexivity|]. intros ([|c0 p] & r & v & E & Hh & Hv).
        { cbn in Hh. injection Hh as <-. lia. }
        cbn [append] in E. injection E as -> ->. cbn [horner] in Hh. rewrite D in Hh. discriminate.
Qed.

(** ** With the sign, and through the map of don't-care characters *)
Section part.
  Context (base bound : N) (g : ascii -> ascii) (dig : ascii -> N -> Prop).
  Hypothesis Hbase : 1 <= base <= 16.
  Hypothesis Hbound : 0 < bound.
  Hypothesis Hdig : forall c d, digit base (g c) d <-> dig c d.
  Hypothesis Hplus : forall c, g c = "+"%char <-> c = "+"%char.

  Lemma horner_map p v : horner base 0 (smap g p) = Some v <-> (p = EmptyString /\ v = 0) \/ digits_with dig base p v.
  Proof.
    rewrite horner_positional by lia. setoid_rewrite (forall2_smap g (digit base) dig p); [|exact Hdig].
    setoid_rewrite N.mul_0_l. setoid_rewrite N.add_0_l. split.
    - intros (ds & F & ->). destruct p as [|c p]; [left|right].
      + cbn in F. inversion F. auto.
      + exists ds. split; [discriminate|]. auto.
    - intros [[-> ->]|(ds & _ & F & ->)]; [exists []; split; [constructor|reflexivity]|exists ds; auto].
  Qed.
  Lemma no_digit c : digit_val base (g c) = None <-> forall d, ~ dig c d.
  Proof.
    split.
    - intros E d H. apply Hdig, digit_val_spec in H; [congruence|lia].
    - intros H. destruct (digit_val base (g c)) as [d|] eqn:E; [|reflexivity].
      exfalso. apply (H d), Hdig, digit_val_spec; [lia|exact E].
  Qed.
  Lemma smap_split t p q : smap g t = (p ++ q)%string -> exists p' q', t = (p' ++ q')%string /\ smap g p' = p /\ smap g q' = q.
  Proof.
    revert t; induction p as [|c p IH]; intros t E.
    - exists EmptyString, t. auto.
    - destruct t as [|c' t]; [discriminate|]. cbn in E. injection E as <- E.
      apply IH in E as (p' & q' & -> & <- & <-). exists (String c' p'), q'. auto.
  Qed.
  Lemma smap_join p q : smap g (p ++ q)%string = (smap g p ++ smap g q)%string.
  Proof. induction p as [|c p IH]; cbn; [|rewrite IH]; reflexivity. Qed.

  Definition stray_in (u : string) : Prop :=
    exists p c r, u = (p ++ String c r)%string /\ (forall d, ~ dig c d) /\
       (p = EmptyString \/ exists v, digits_with dig base p v /\ v < bound).
  Definition large_in (u : string) : Prop := exists p r v, u = (p ++ r)%string /\ digits_with dig base p v /\ bound <= v.

  Lemma scan_map u k : digits_scan base bound 0 (smap g u) = inr k <->
    match k with IEmpty => False | IInvalidDigit => stray_in u | IPosOverflow => large_in u end.
  Proof.
    rewrite scan_spec by lia. destruct k; [reflexivity|..]; split.
    - intros (p & c & r & v & E & Hc & Hh & Hv). apply smap_split in E as (p' & q & -> & <- & E).
      destruct q as [|c' q]; [discriminate|]. cbn in E. injection E as <- <-.
      exists p', c', q. split; [reflexivity|]. split; [now apply no_digit|].
      apply horner_map in Hh as [[-> _]|H]; [auto|eauto].
    - intros (p & c & r & -> & Hc & Hp). apply no_digit in Hc.
      assert (H : exists v, horner base 0 (smap g p) = Some v /\ v < bound).
      { destruct Hp as [->|(v & H & Hv)]; [exists 0; auto|]. exists v. split; [|exact Hv]. apply horner_map. auto. }
      destruct H as (v & H & Hv). exists (smap g p), (g c), (smap g r), v. split; [now rewrite smap_join|]. auto.
    - intros (p & r & v & E & Hh & Hv). apply smap_split in E as (p' & q & -> & <- & <-).
      exists p', q, v. split; [reflexivity|]. split; [|exact Hv]. apply horner_map in Hh as [[_ ->]|H]; [lia|exact H].
    - intros (p & r & v & -> & H & Hv). exists (smap g p), (smap g r), v. split; [now rewrite smap_join|].
      split; [|exact Hv]. apply horner_map. auto.
  Qed.

  Lemma radix_map t k : radix_scan base bound (smap g t) = inr k <->
    match k with
    | IEmpty => t = EmptyString
    | IInvalidDigit => exists u, t <> EmptyString /\ past_sign t u /\ (u = EmptyString \/ stray_in u)
    | IPosOverflow => exists u, past_sign t u /\ large_in u
    end.
  Proof.
    assert (S : forall c r, Ascii.eqb c "+" = false -> radix_scan base bound (String c r) = digits_scan base bound 0 (String c r)).
    { intros c r H. destruct c as [[] [] [] [] [] [] [] []]; try reflexivity. discriminate H. }
    destruct t as [|c t].
    - cbn. split; [intros E; injection E as <-; reflexivity|].
      destruct k; [reflexivity|..]; intros H.
      + destruct H as (u & H & _). easy.
      + destruct H as (u & [H|[<- _]] & p & r & v & E & (ds & Hn & _) & _); [discriminate|].
        destruct p; [now destruct Hn|discriminate].
    - destruct (Ascii.eqb_spec c "+") as [->|Hc].
      + assert (P : forall u, past_sign (String "+" t) u <-> u = t).
        { intros u. unfold past_sign. split; [intros [E|[_ E]]; [now injection E|now destruct (E t)]|intros ->; auto]. }
        cbn [smap]. rewrite (proj2 (Hplus "+"%char) eq_refl).
        destruct t as [|a t].
        * cbn. split; [intros E; injection E as <-|destruct k]; [|discriminate|reflexivity|].
          -- exists EmptyString. split; [discriminate|]. split; [now apply P|auto].
          -- intros (u & H & p & r & v & E & (ds & Hn & _) & _). apply P in H as ->. destruct p; [now destruct Hn|discriminate].
        * change (radix_scan base bound (String "+" (smap g (String a t)))) with (digits_scan base bound 0 (smap g (String a t))).
          rewrite scan_map. destruct k.
          -- split; [easy|discriminate].
          -- split; [intros H; exists (String a t); split; [discriminate|]; split; [now apply P|auto]|].
             intros (u & _ & H & [E|K]); apply P in H as ->; [discriminate|exact K].
          -- split; [intros H; exists (String a t); split; [now apply P|auto]|]. intros (u & H & K). apply P in H as ->. exact K.
      + assert (P : forall u, past_sign (String c t) u <-> u = String c t).
        { intros u. unfold past_sign. split; [intros [E|[E _]]; [injection E as E _; now destruct Hc|auto]|intros ->; right].
          split; [reflexivity|]. intros r E. congruence. }
        cbn [smap]. rewrite S.
        2: { destruct (Ascii.eqb_spec (g c) "+") as [E|]; [apply (proj1 (Hplus c)) in E; congruence|reflexivity]. }
        change (String (g c) (smap g t)) with (smap g (String c t)). rewrite scan_map. destruct k.
        * split; [easy|discriminate].
        * split; [intros H; exists (String c t); split; [discriminate|]; split; [now apply P|auto]|].
          intros (u & _ & H & [E|K]); apply P in H as ->; [discriminate|exact K].
        * split; [intros H; exists (String c t); split; [now apply P|auto]|]. intros (u & H & K). apply P in H as ->. exact K.
  Qed.
End part.

Lemma smap_id t : smap (fun c => c) t = t.
Proof. induction t as [|c t IH]; cbn; [|rewrite IH]; reflexivity. Qed.

(** ** The whole text *)
Definition part_fault (bound base : N) (dig : ascii -> N -> Prop) (t : string) (k : int_error) : Prop :=
  match k with
  | IEmpty => t = EmptyString
  | IInvalidDigit => exists u, t <> EmptyString /\ past_sign t u /\ (u = EmptyString \/ stray_in base bound dig u)
  | IPosOverflow => exists u, past_sign t u /\ large_in base bound dig u
  end.
Definition text_fault (bound : N) (s : string) (k : int_error) : Prop :=
  exists base dig t, digits_part s base dig t /\ part_fault bound base dig t k.

Lemma parse_num_err bound s k : 0 < bound -> parse_num bound s = Err (EParseInt k) <-> text_fault bound s k.
Proof.
  intros Hbd. unfold parse_num, text_fault.
  assert (M : forall (x : N + int_error), match x with inl v => Ok v | inr k => Err (EParseInt k) end = Err (EParseInt k) <-> x = inr k).
  { intros [v|k']; split; congruence. }
  rewrite M. clear M.
  assert (X : forall t, radix_scan 16 bound t = inr k <-> part_fault bound 16 (digit 16) t k).
  { intros t. rewrite <- (smap_id t) at 1. apply radix_map; [lia|assumption|reflexivity|reflexivity]. }
  destruct (strip_prefix "0x" s) as [t|] eqn:E1.
  { apply strip_prefix_spec in E1. subst s. rewrite X. split.
    - intros H. exists 16, (digit 16), t. split; [constructor; auto|exact H].
    - intros (base & dig & t' & [t1 [E|E]|t1 E|t1 E|Hn] & H); try discriminate E.
      + apply sapp_cancel_l in E. now subst.
      + exfalso. apply (Hn "0x"%string t); cbn; auto. }
  destruct (strip_prefix "0X" s) as [t|] eqn:E2.
  { apply strip_prefix_spec in E2. subst s. rewrite X. split.
    - intros H. exists 16, (digit 16), t. split; [constructor; auto|exact H].
    - intros (base & dig & t' & [t1 [E|E]|t1 E|t1 E|Hn] & H); try discriminate E.
      + apply sapp_cancel_l in E. now subst.
      + exfalso. apply (Hn "0X"%string t); cbn; auto. }
  rewrite strip_hash_lower. destruct (strip_prefix "#" s) as [t|] eqn:E3.
  { apply strip_prefix_spec in E3. subst s. cbn [option_map].
    rewrite replace_x, to_lowercase_smap, smap_smap.
    rewrite (radix_map 2 bound _ (bit_or_x ["x"; "X"]%char));
      [|lia|assumption|apply xX_to_0_bit|intros c; rewrite x_to_0_plus; apply lower_not_alpha; reflexivity].
    split.
    - intros H. exists 2, (bit_or_x ["x"; "X"]%char), t. split; [constructor; auto|exact H].
    - intros (base & dig & t' & [t1 [E|E]|t1 E|t1 E|Hn] & H); try discriminate E.
      + apply sapp_cancel_l in E. now subst.
      + exfalso. apply (Hn "#"%string t); cbn; auto. }
  cbn [option_map]. destruct (strip_prefix "0b" s) as [t|] eqn:E4.
  { apply strip_prefix_spec in E4. subst s.
    rewrite replace_x. rewrite (radix_map 2 bound _ (bit_or_x ["x"]%char)); [|lia|assumption|apply x_to_0_bit|apply x_to_0_plus].
    split.
    - intros H. exists 2, (bit_or_x ["x"]%char), t. split; [constructor; auto|exact H].
    - intros (base & dig & t' & [t1 [E|E]|t1 E|t1 E|Hn] & H); try discriminate E.
      + apply sapp_cancel_l in E. now subst.
      + exfalso. apply (Hn "0b"%string t); cbn; auto. }
  rewrite <- (smap_id s) at 1. rewrite (radix_map 10 bound _ (digit 10)); [|lia|assumption|reflexivity|reflexivity].
  split.
  - intros H. exists 10, (digit 10), s. split; [|exact H]. apply dp_dec. intros p t I E.
    apply strip_prefix_spec in E. cbn in I. destruct I as [<-|[<-|[<-|[<-|[]]]]]; congruence.
  - intros (base & dig & t' & [t1 E|t1 E|t1 E|Hn] & H).
    + destruct E as [E|E]; apply strip_prefix_spec in E; congruence.
    + apply strip_prefix_spec in E; congruence.
    + apply strip_prefix_spec in E; congruence.
    + exact H.
Qed.

Lemma number_errors bound s : 0 < bound ->
  (parse_num bound s = Err (EParseInt IEmpty) <-> nothing_to_read s) /\
  (parse_num bound s = Err (EParseInt IInvalidDigit) <-> stray_character bound s) /\
  (parse_num bound s = Err (EParseInt IPosOverflow) <-> too_many_digits bound s).
Proof.
  intros Hb. rewrite !parse_num_err by exact Hb. unfold text_fault, part_fault. split; [|split].
  - unfold nothing_to_read. split.
    + intros (base & dig & t & H & ->). eauto.
    + intros (base & dig & H). eauto 6.
  - unfold stray_character, stray_in. split.
    + intros (base & dig & t & H & u & Hn & Hs & K). exists base, dig, t, u. auto.
    + intros (base & dig & t & u & H & Hn & Hs & K). exists base, dig, t. split; [exact H|]. exists u. auto.
  - unfold too_many_digits, large_in. split.
    + intros (base & dig & t & H & u & Hs & p & r & v & E & D & L). exists base, dig, t, u, p, r, v. auto.
    + intros (base & dig & t & u & p & r & v & H & Hs & E & D & L). exists base, dig, t. split; [exact H|].
      exists u. split; [exact Hs|]. exists p, r, v. auto.
Qed.

Lemma number_rejected bound s : 0 < bound ->
  (forall v, number_text s v -> ~ v < bound) <-> exists k, parse_num bound s = Err (EParseInt k).
Proof.
  intros Hb. split.
  - intros H. destruct (parse_num_total bound s) as [[v E]|E]; [|exact E].
    apply parse_num_spec in E as [T L]; [|exact Hb]. destruct (H v T L).
  - intros (k & E) v T L. assert (P : parse_num bound s = Ok v) by (apply parse_num_spec; auto). congruence.
Qed.
