(** C78: the words of the messages of expansion. *)
From Verif Require Import Base BaseFacts Types Expand Show ShowMore SpecArray SpecDerive SpecExpand SpecRefuse RefuseProofs PropExpand PropRefuse.
Open Scope string_scope.

(** What is said of an element whose reference cannot be followed; [up] and [low] are the words for its kind. *)
Definition complains (up low text : string) : Prop :=
  exists t, text = up ++ " " ++ t ++ " is self-derived" \/ text = low ++ " " ++ t ++ " not found".

Lemma stuck_kind {A} k ref meant placed self ctx s e : @stuck A k ref meant placed self ctx s e ->
  (exists t, e = ENotFound k t) \/ (exists t, e = ESelfDerived k t).
Proof. intros H. induction H; eauto. Qed.
Lemma values_stuck_kind d name ctx s e : values_stuck d name ctx s e ->
  (exists t, e = ENotFound KValues t) \/ (exists t, e = ESelfDerived KValues t).
Proof. intros H. induction H; eauto. Qed.

(** The message begins with the kind of an element whose reference cannot be followed. *)
Theorem C78_expand_words : forall m fuel d e m' text, expand m fuel d = Err e -> show m' e = Ok text ->
  (exists p, In p (d_peripherals d) /\ p_derived_from (info p) <> None /\ complains "Peripheral" "peripheral" text) \/
  (exists ctx (c : cluster), child_read d ctx (RCCluster c) /\ c_derived_from (info c) <> None /\ complains "Cluster" "cluster" text) \/
  (exists ctx r, child_read d ctx (RCRegister r) /\ r_derived_from (info r) <> None /\ complains "Register" "register" text) \/
  (exists ctx f, field_read d ctx f /\ f_derived_from (info f) <> None /\ complains "Field" "field" text) \/
  (exists ctx v, values_read d ctx v /\ evs_derived_from v <> None /\ complains "EnumeratedValues" "enumeratedValues" text).
Proof.
  intros m fuel d e m' text H T. apply expand_refused in H.
  assert (K : forall k, (exists t, e = ENotFound k t) \/ (exists t, e = ESelfDerived k t) -> complains (show_kind k) (show_kind_lower k) text).
  { intros k [[t ->]|[t ->]]; injection T as <-; exists t; [right|left]; reflexivity. }
  destruct H as [p s I D S|ctx c s I D S|ctx r s I D S|ctx f s I D S|ctx v s I D S].
  - left. exists p. conjs; [exact I|intros X; pose proof (eq_trans (eq_sym X) D) as Y; discriminate Y|]. exact (K KPeripheral (stuck_kind _ _ _ _ _ _ _ _ S)).
  - right. left. exists ctx, c. conjs; [exact I|intros X; pose proof (eq_trans (eq_sym X) D) as Y; discriminate Y|]. exact (K KCluster (stuck_kind _ _ _ _ _ _ _ _ S)).
  - right. right. left. exists ctx, r. conjs; [exact I|intros X; pose proof (eq_trans (eq_sym X) D) as Y; discriminate Y|]. exact (K KRegister (stuck_kind _ _ _ _ _ _ _ _ S)).
  - right. right. right. left. exists ctx, f. conjs; [exact I|intros X; pose proof (eq_trans (eq_sym X) D) as Y; discriminate Y|]. exact (K KField (stuck_kind _ _ _ _ _ _ _ _ S)).
  - right. right. right. right. exists ctx, v. conjs; [exact I|intros X; pose proof (eq_trans (eq_sym X) D) as Y; discriminate Y|]. exact (K KValues (values_stuck_kind _ _ _ _ _ S)).
Qed.
Print Assumptions C78_expand_words.

Example C78_expand_example : exists e, expand Debug 4 (a_device [Single (a_peripheral "P" 0 (Some
    [RCCluster (Single (a_cluster "C" 0 [] (Some "Q.D")))]) None)]) = Err e /\ show Debug e = Ok "cluster Q.D not found".
Proof. eexists. split; vm_compute; reflexivity. Qed.

(** ** What a message quotes *)
Definition quotes (text s : string) : Prop := exists a b, text = a ++ s ++ b.
(** What an error is about: tags in angle brackets, names and other texts as they are, numbers in decimal or, for the contents
    of registers, in hexadecimal notation. *)
Definition decimal (n : N) : string := to_string n.
Definition hexadecimal (n : N) : string := "0x" ++ fmt_radix false 16 n.
Definition subjects (e : err) : list string :=
  match e with
  | EMissingTag k | EEmptyTag k | ENotExpectedTag k => ["<" ++ k ++ ">"]
  | EUninitialized k => [k]
  | EName n _ => [n]
  | EMissingPlaceholder n t => [n; t]
  | EUnknownAccess s | EUnknownDataType s | EUnknownEndian s | EUnknownReadAction s | EUnknownMwv s | EUnknownProtection s
  | EInvalidBool s | EInvalidRegisterCluster s => [s]
  | EEvValueAndDefault (Some v) => [decimal v]
  | EEvOutOfRange v start _ => [decimal v; decimal start]
  | EWcOutOfRange v start end_ => [decimal v; decimal start; decimal end_]
  | EWcReversedRange a b => [decimal a; decimal b]
  | EValueTooLarge v size | EMaskTooLarge v size => [hexadecimal v; decimal size]
  | EMaskConflict v k => [hexadecimal v; hexadecimal k]
  | EIncorrectDimIndexesCount n dim => [decimal n; decimal dim]
  | ESelfDerived _ s | ENotFound _ s => [s]
  | _ => []
  end.
Lemma quotes_here s b : quotes (s ++ b) s.
Proof. exists "", b. reflexivity. Qed.
Lemma quotes_all s : quotes s s.
Proof. exists "", "". cbn. symmetry. apply sapp_nil. Qed.
Lemma quotes_char c t s : quotes t s -> quotes (String c t) s.
Proof. intros (a & b & ->). exists (String c a), b. reflexivity. Qed.
Lemma quotes_app x t s : quotes t s -> quotes (x ++ t) s.
Proof. intros H. induction x as [|c x IH]; [exact H|]. apply quotes_char, IH. Qed.
Lemma quotes_tag k t : quotes (String "<" (k ++ String ">" t)) ("<" ++ k ++ ">").
Proof. exists "", t. cbn [append]. f_equal. symmetry. apply (app_assoc_s k ">" t). Qed.
Lemma quotes_hex n t : quotes (String "0" (String "x" (fmt_radix false 16 n ++ t))) (hexadecimal n).
Proof. exists "", t. reflexivity. Qed.
Ltac quoting := repeat first [apply quotes_tag|apply quotes_hex|apply quotes_here|apply quotes_all|apply quotes_char|apply quotes_app].

(** The message quotes all of it. *)
Theorem C78_quotes : forall m e text s, show m e = Ok text -> In s (subjects e) -> quotes text s.
Proof.
  intros m e text s H I.
  destruct e; cbn [subjects] in I; try contradiction; try (destruct v; [|contradiction]);
    cbn [show] in H; try (destruct (sub_w pow64 m end_ 1); [|discriminate H..]; cbn [bind] in H);
    injection H as <-; cbv [wrapped show_option show_dec show_hex]; rewrite ?app_assoc_s; cbn [append];
    repeat (destruct I as [<-|I]; [quoting|]); contradiction.
Qed.
Print Assumptions C78_quotes.
Example C78_quotes_example : subjects (EMaskConflict 255 15) = ["0xff"; "0xf"] /\
  show Debug (EMaskConflict 255 15) = Ok "`RegisterProperties error: Reset value 0xff conflicts with mask '0xf'" /\
  subjects (EMissingTag "name") = ["<name>"] /\ show Debug (EMissingTag "name") = Ok "Expected a <name> tag, found none".
Proof. vm_compute. auto. Qed.

(** ** Quoting as words *)
(** Letters and digits. *)
Definition in_word (c : ascii) : bool :=
  let n := N_of_ascii c in (((48 <=? n) && (n <=? 57)) || ((65 <=? n) && (n <=? 90)) || ((97 <=? n) && (n <=? 122)))%N.
Definition first_apart (b : string) : Prop := forall c t, b = String c t -> in_word c = false.
Definition last_apart (a : string) : Prop := forall t c, a = t ++ String c "" -> in_word c = false.
(** Nothing that belongs to a word touches the quotation. *)
Definition quotes_word (text s : string) : Prop := exists a b, text = a ++ s ++ b /\ last_apart a /\ first_apart b.

Definition word_at (ok : bool) (text s : string) : Prop := exists a b, text = a ++ s ++ b /\ (a = "" -> ok = true) /\ last_apart a /\ first_apart b.
Lemma word_here s b : first_apart b -> word_at true (s ++ b) s.
Proof. intros F. exists "", b. conjs; [reflexivity|reflexivity| |exact F]. intros [|? t] c H; discriminate H. Qed.
Lemma word_end s : word_at true s s.
Proof. rewrite <- (sapp_nil s) at 1. apply word_here. intros c t H; discriminate H. Qed.
Lemma word_char c ok t s : word_at (negb (in_word c)) t s -> word_at ok (String c t) s.
Proof.
  intros (a & b & -> & O & L & F). exists (String c a), b. conjs; [reflexivity|discriminate| |exact F].
  intros [|x u] y H; injection H as <- H; [|exact (L u y H)]. specialize (O H). destruct (in_word c); [discriminate O|reflexivity].
Qed.
Lemma word_app x ok t s : word_at false t s -> word_at ok (x ++ t) s.
Proof.
  intros (a & b & -> & O & L & F). destruct a as [|c a]; [discriminate (O eq_refl)|]. exists (x ++ String c a), b. conjs; [symmetry; apply app_assoc_s|destruct x; discriminate| |exact F].
  clear - L. induction x as [|d x IH]; [exact L|]. intros [|e u] y H; cbn in H; injection H as -> H; [destruct x; discriminate H|exact (IH u y H)].
Qed.
Lemma word_tag k t ok : first_apart t -> ok = true -> word_at ok (String "<" (k ++ String ">" t)) ("<" ++ k ++ ">").
Proof. intros F ->. exists "", t. conjs; [|reflexivity| |exact F]. - cbn [append]. f_equal. symmetry. apply (app_assoc_s k ">" t). - intros [|? u] c H; discriminate H. Qed.
Lemma word_hex n t : first_apart t -> word_at true (String "0" (String "x" (fmt_radix false 16 n ++ t))) (hexadecimal n).
Proof. intros F. exists "", t. conjs; [reflexivity|reflexivity| |exact F]. intros [|? u] c H; discriminate H. Qed.
Lemma word_hex_end n : word_at true (String "0" (String "x" (fmt_radix false 16 n))) (hexadecimal n).
Proof. apply word_end. Qed.
Ltac apart := let H := fresh in intros ? ? H; first [discriminate H|injection H as <- _; reflexivity].
Ltac wording := repeat first [solve [apply word_tag; [apart|reflexivity]]|solve [apply word_hex; apart]|solve [apply word_here; apart]|solve [apply word_end]
  |apply word_char; match goal with |- word_at ?b _ _ => let v := eval vm_compute in b in change b with v end|apply word_app].

Theorem C78_quotes_words : forall m e text s, show m e = Ok text -> In s (subjects e) -> quotes_word text s.
Proof.
  intros m e text s H I. enough (W : word_at true text s) by (destruct W as (a & b & E & _ & L & F); exists a, b; auto).
  destruct e; cbn [subjects] in I; try contradiction; try (destruct v; [|contradiction]);
    cbn [show] in H; try (destruct (sub_w pow64 m end_ 1); [|discriminate H..]; cbn [bind] in H);
    injection H as <-; cbv [wrapped show_option show_dec show_hex]; rewrite ?app_assoc_s; cbn [append];
    repeat (destruct I as [<-|I]; [solve [wording]|]); try contradiction.
Qed.
Print Assumptions C78_quotes_words.
Example C78_quotes_words_example : quotes_word "Value 12 out of range 3..8" "12" /\ ~ quotes_word "Value x12" "12".
Proof.
  split.
  - enough (W : word_at true "Value 12 out of range 3..8" "12") by (destruct W as (a & b & E & _ & L & F); exists a, b; auto).
    do 6 apply word_char. apply (word_here "12" " out of range 3..8"). apart.
  - intros (a & b & E & L & F). do 8 (destruct a as [|? a]; [cbn in E; try discriminate E|injection E as ? E]; subst).
    all: try (specialize (L "Value " "x"%char eq_refl); discriminate L). all: destruct a as [|? [|? a]]; discriminate E.
Qed.
