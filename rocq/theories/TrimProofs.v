From Verif Require Import Base BaseFacts NumProofs SpecText.

Lemma sapp_nil s : (s ++ "")%string = s.
Proof. induction s; cbn; congruence. Qed.
Lemma sapp_assoc a b c : ((a ++ b) ++ c)%string = (a ++ (b ++ c))%string.
Proof. induction a; cbn; congruence. Qed.
Lemma sapp_inj_r a b c : (a ++ c)%string = (b ++ c)%string -> a = b.
Proof.
  revert b. induction a as [|x a IH]; intros [|y b] H; cbn in H; auto.
  - exfalso. apply (f_equal String.length) in H. cbn in H.
    assert (L : forall s t, String.length (s ++ t) = (String.length s + String.length t)%nat)
      by (clear; induction s; cbn; intros; auto). rewrite L in H. lia.
  - exfalso. apply (f_equal String.length) in H. cbn in H.
    assert (L : forall s t, String.length (s ++ t) = (String.length s + String.length t)%nat)
      by (clear; induction s; cbn; intros; auto). rewrite L in H. lia.
  - injection H as -> H. f_equal. auto.
Qed.

(** The 25 characters, spelled out. *)
Ltac white_cases H :=
  let n := fresh "n" in let I := fresh "I" in
  destruct H as (n & I & ->); cbn [In white_code_points] in I;
  repeat (destruct I as [<-|I]; [|]); [.. | contradiction].

Lemma white_front c s : white c ->
  exists k, ws_front (c ++ s) = S k /\ exists x u, c = String x u /\ String.length u = k.
Proof. intros H. white_cases H; (eexists; split; [reflexivity|]; eexists _, _; split; reflexivity). Qed.
Lemma skip_go u s k : String.length u = k -> trim_start_go (u ++ s) k = trim_start s.
Proof.
  intros <-. induction u as [|x u IH]; cbn [String.length append]; [reflexivity|].
  cbn [trim_start_go]. exact IH.
Qed.
Lemma trim_start_white c s : white c -> trim_start (c ++ s) = trim_start s.
Proof.
  intros H. destruct (white_front c s H) as (k & F & x & u & -> & L).
  unfold trim_start at 1. cbn [append] in *. cbn [trim_start_go]. rewrite F. now apply skip_go.
Qed.
Lemma trim_start_spaces a s : spaces a -> trim_start (a ++ s) = trim_start s.
Proof.
  induction 1 as [|c a W S IH]; [reflexivity|]. rewrite sapp_assoc, trim_start_white; auto.
Qed.

(** Conversely a positive ws_front is one of the characters. *)
Lemma byte_is c n : byte c = n -> c = chr n.
Proof. intros <-. now rewrite chr_byte. Qed.
Ltac bytes :=
  repeat match goal with
  | H : (_ && _)%bool = true |- _ => apply andb_prop in H as [? ?]
  | H : (_ || _)%bool = true |- _ => apply Bool.orb_true_iff in H as [H|H]
  | H : (_ =? _) = true |- _ => apply N.eqb_eq in H
  | H : (_ <=? _) = true |- _ => apply N.leb_le in H
  end.
Lemma range_cases lo hi n : lo <= n -> n <= hi -> In n (map (fun i => lo + N.of_nat i) (seq 0 (N.to_nat (hi + 1 - lo)))).
Proof.
  intros A B. apply in_map_iff. exists (N.to_nat (n - lo)). split; [lia|]. apply in_seq. lia.
Qed.
Lemma ws_front_white s k : ws_front s = S k -> exists c t, white c /\ s = (c ++ t)%string /\ String.length c = S k.
Proof.
  unfold ws_front. intros H.
  destruct s as [|a s1]; [discriminate|].
  destruct ((((9 <=? byte a) && (byte a <=? 13)) || (byte a =? 32))%bool) eqn:E1.
  { injection H as <-. exists (String a ""), s1. split; [|split; reflexivity].
    bytes.
    - pose proof (range_cases 9 13 _ H H0) as R. change (N.to_nat (13 + 1 - 9)) with 5%nat in R. cbn in R.
      repeat (destruct R as [R|R]; [symmetry in R; apply byte_is in R; subst a|]); [..|contradiction].
      + exists 9. split; [cbn; tauto|reflexivity].
      + exists 10. split; [cbn; tauto|reflexivity].
      + exists 11. split; [cbn; tauto|reflexivity].
      + exists 12. split; [cbn; tauto|reflexivity].
      + exists 13. split; [cbn; tauto|reflexivity].
    - apply byte_is in E1. subst a. exists 32. split; [cbn; tauto|reflexivity]. }
  destruct s1 as [|b s2]; [discriminate|].
  destruct (((byte a =? 194) && ((byte b =? 133) || (byte b =? 160)))%bool) eqn:E2.
  { injection H as <-. exists (String a (String b "")), s2. split; [|split; reflexivity].
    bytes; (match goal with Ha : byte a = _, Hb : byte b = _ |- _ => apply byte_is in Ha, Hb; subst a b end).
    - exists 133. split; [cbn; tauto|reflexivity].
    - exists 160. split; [cbn; tauto|reflexivity]. }
  destruct s2 as [|c s3]; [discriminate|].
  match type of H with (if ?g then _ else _) = _ => destruct g eqn:E3 end; [|discriminate].
  injection H as <-. exists (String a (String b (String c ""))), s3. split; [|split; reflexivity].
  bytes.
  all: repeat match goal with
    | Ha : byte ?x = _ |- _ => apply byte_is in Ha; subst x end.
  - exists 5760. split; [cbn; tauto|reflexivity].
  - match goal with H1 : 128 <= byte c, H2 : byte c <= 138 |- _ => pose proof (range_cases 128 138 _ H1 H2) as R end.
    change (N.to_nat (138 + 1 - 128)) with 11%nat in R. cbn in R.
    repeat (destruct R as [R|R]; [symmetry in R; apply byte_is in R; subst c|]); [..|contradiction].
    + exists 8192. split; [cbn; tauto|reflexivity].
    + exists 8193. split; [cbn; tauto|reflexivity].
    + exists 8194. split; [cbn; tauto|reflexivity].
    + exists 8195. split; [cbn; tauto|reflexivity].
    + exists 8196. split; [cbn; tauto|reflexivity].
    + exists 8197. split; [cbn; tauto|reflexivity].
    + exists 8198. split; [cbn; tauto|reflexivity].
    + exists 8199. split; [cbn; tauto|reflexivity].
    + exists 8200. split; [cbn; tauto|reflexivity].
    + exists 8201. split; [cbn; tauto|reflexivity].
    + exists 8202. split; [cbn; tauto|reflexivity].
  - exists 8232. split; [cbn; tauto|reflexivity].
  - exists 8233. split; [cbn; tauto|reflexivity].
  - exists 8239. split; [cbn; tauto|reflexivity].
  - exists 8287. split; [cbn; tauto|reflexivity].
  - exists 12288. split; [cbn; tauto|reflexivity].
Qed.
Lemma ws_front_zero s : ws_front s = O <-> forall c u, white c -> s <> (c ++ u)%string.
Proof.
  split.
  - intros H c u W ->. destruct (white_front c u W) as (k & F & _). congruence.
  - intros H. destruct (ws_front s) eqn:E; [reflexivity|].
    destruct (ws_front_white s n E) as (c & t & W & -> & _). now destruct (H c t W).
Qed.

Lemma trim_start_fix s : ws_front s = O -> trim_start s = s.
Proof. intros H. unfold trim_start. destruct s; [reflexivity|]. cbn [trim_start_go]. now rewrite H. Qed.
Lemma trim_start_split s : exists a, s = (a ++ trim_start s)%string /\ spaces a /\ ws_front (trim_start s) = O.
Proof.
  remember (String.length s) as n eqn:L. revert s L.
  induction n as [n IH] using (well_founded_induction Wf_nat.lt_wf). intros s L.
  destruct (ws_front s) as [|k] eqn:E.
  - exists EmptyString. rewrite trim_start_fix by exact E. repeat split; auto. constructor.
  - destruct (ws_front_white s k E) as (c & t & W & -> & Lc).
    assert (LA : forall x y, String.length (x ++ y) = (String.length x + String.length y)%nat)
      by (clear; induction x; cbn; intros; auto).
    rewrite LA in L. destruct (IH (String.length t)) with (s := t) as (a & Ha & Sa & Z); [lia|reflexivity|].
    rewrite trim_start_white by exact W. exists (c ++ a)%string. split; [rewrite sapp_assoc; congruence|].
    split; [now constructor|exact Z].
Qed.
Lemma trim_start_empty s : trim_start s = EmptyString <-> spaces s.
Proof.
  split.
  - intros H. destruct (trim_start_split s) as (a & E & S & _). rewrite H, sapp_nil in E. now subst.
  - intros S. rewrite <- (sapp_nil s). now rewrite trim_start_spaces.
Qed.

(** No white character starts inside another one. *)
Definition lead (s : string) : Prop := match s with EmptyString => True | String a _ => byte a < 128 \/ 192 <= byte a end.
Lemma white_lead c s : white c -> lead (c ++ s).
Proof. intros H. white_cases H; cbn -[N.lt N.le]; unfold byte; vm_compute; (left; reflexivity) || (right; discriminate). Qed.
Lemma spaces_lead s : spaces s -> lead s.
Proof. destruct 1; [exact I|]. now apply white_lead. Qed.
(** A white character at the front of [t ++ b] lies within [t]. *)
Lemma white_within c t b u : white c -> lead b -> t <> EmptyString ->
  (t ++ b)%string = (c ++ u)%string -> exists t', t = (c ++ t')%string.
Proof.
  intros W L N E. destruct t as [|x [|y [|z t]]]; [congruence| | |].
  - white_cases W; cbn in E; injection E; intros; subst; try (exists EmptyString; reflexivity);
      vm_compute in L; destruct L as [L|L]; (discriminate L || (exfalso; apply L; reflexivity)).
  - white_cases W; cbn in E; injection E; intros; subst; try (exists (String y EmptyString); reflexivity);
      try (exists EmptyString; reflexivity);
      vm_compute in L; destruct L as [L|L]; (discriminate L || (exfalso; apply L; reflexivity)).
  - white_cases W; cbn in E; injection E; intros; subst;
      (exists (String y (String z t)); reflexivity) || (exists (String z t); reflexivity) || (exists t; reflexivity).
Qed.
Lemma spaces_app a b : spaces a -> spaces b -> spaces (a ++ b).
Proof. induction 1; intros; [assumption|]. rewrite sapp_assoc. constructor; auto. Qed.
Lemma spaces_front t b : spaces (t ++ b) -> spaces b -> spaces t.
Proof.
  intros H. remember (t ++ b)%string as s eqn:E. revert t E. induction H as [|c s W S IH]; intros t E Sb.
  - destruct t; [constructor|discriminate].
  - destruct t as [|x t]; [constructor|].
    destruct (white_within c (String x t) b s W (spaces_lead b Sb)) as (t' & Et); [discriminate|auto|].
    rewrite Et in *. constructor; [exact W|]. apply IH; [|exact Sb].
    rewrite sapp_assoc in E. clear - E. induction c as [|x c IH]; cbn in E; [exact E|]. injection E as E. auto.
Qed.
Lemma spaces_back s : spaces s -> s <> EmptyString -> exists c u, white c /\ s = (u ++ c)%string.
Proof.
  induction 1 as [|c s W S IH]; [congruence|]. intros _. destruct s as [|x s].
  - exists c, EmptyString. now rewrite sapp_nil.
  - destruct IH as (d & u & D & E); [discriminate|]. exists d, (c ++ u)%string. rewrite sapp_assoc. now rewrite E.
Qed.

Lemma trim_end_spaces t b : spaces b -> (forall c u, white c -> t <> (u ++ c)%string) -> trim_end (t ++ b) = t.
Proof.
  intros Sb. induction t as [|x t IH]; intros H; cbn [append].
  - destruct b as [|y b]; [reflexivity|]. cbn [trim_end].
    rewrite (proj2 (trim_start_empty _) Sb). reflexivity.
  - cbn [trim_end]. destruct (str_empty (trim_start (String x (t ++ b)))) eqn:E.
    + exfalso. assert (Z : trim_start (String x t ++ b) = EmptyString).
      { cbn [append]. destruct (trim_start _); [reflexivity|discriminate]. }
      apply trim_start_empty in Z. apply (spaces_front _ b) in Z; [|exact Sb].
      destruct (spaces_back _ Z) as (c & u & W & Q); [discriminate|]. exact (H c u W Q).
    + f_equal. apply IH. intros c u W ->. apply (H c (String x u) W). reflexivity.
Qed.
Lemma trim_end_split s : exists b, s = (trim_end s ++ b)%string /\ spaces b /\
  (forall c u, white c -> trim_end s <> (u ++ c)%string).
Proof.
  induction s as [|x s IH].
  - exists EmptyString. split; [reflexivity|]. split; [constructor|].
    intros c u W E. cbn in E. destruct u; [|discriminate]. cbn in E. subst. now apply (white_front _ "") in W as (k & F & _).
  - cbn [trim_end]. destruct (str_empty (trim_start (String x s))) eqn:E.
    + exists (String x s). split; [reflexivity|]. split.
      * apply trim_start_empty. destruct (trim_start _); [reflexivity|discriminate].
      * intros c u W Q. destruct u; [|discriminate]. cbn in Q. subst. now apply (white_front _ "") in W as (k & F & _).
    + destruct IH as (b & Hb & Sb & N). exists b. split; [cbn; now rewrite <- Hb|]. split; [exact Sb|].
      intros c u W Q. destruct u as [|y u].
      * cbn in Q. subst c. assert (Z : trim_start (String x s) = EmptyString).
        { rewrite Hb. change (String x (trim_end s ++ b)) with (String x (trim_end s) ++ b)%string.
          apply trim_start_empty. apply spaces_app; [|exact Sb]. rewrite <- (sapp_nil (String _ _)). constructor; [exact W|constructor]. }
        rewrite Z in E. discriminate.
      * cbn in Q. injection Q as _ Q. exact (N c u W Q).
Qed.

Lemma ws_front_app t b : t <> EmptyString -> spaces b -> ws_front t = O -> ws_front (t ++ b) = O.
Proof.
  intros N Sb Z. apply ws_front_zero. intros c u W E.
  destruct (white_within c t b u W (spaces_lead b Sb) N E) as (t' & ->).
  destruct (white_front c t' W) as (k & F & _). congruence.
Qed.
Lemma trim_spec s t : trim s = t <-> trimmed s t.
Proof.
  unfold trim. split.
  - intros <-. destruct (trim_start_split s) as (a & Ea & Sa & Za).
    destruct (trim_end_split (trim_start s)) as (b & Eb & Sb & N).
    exists a, b. split; [now rewrite <- Eb|]. split; [exact Sa|]. split; [exact Sb|]. split; [|exact N].
    intros c u W E. destruct (ws_front_zero (trim_start s)) as [K _].
    apply (K Za c (u ++ b)%string W). rewrite <- sapp_assoc, <- E. exact Eb.
  - intros (a & b & -> & Sa & Sb & F & B). rewrite trim_start_spaces by exact Sa.
    destruct t as [|x t].
    + cbn [append]. rewrite (proj2 (trim_start_empty b) Sb). reflexivity.
    + rewrite trim_start_fix.
      * now apply trim_end_spaces.
      * apply ws_front_app; [discriminate|exact Sb|]. now apply ws_front_zero.
Qed.
Lemma trim_unique s t t' : trimmed s t -> trimmed s t' -> t = t'.
Proof. rewrite <- !trim_spec. congruence. Qed.
