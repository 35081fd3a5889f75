(** C89: what an access allows, the processor family, single instances and arrays, and the
    options of the parser. *)
From Verif Require Import Base BaseFacts Types Arrays Xml Parse Top Serde Views SpecText SpecDerive TrimProofs DeriveProofs.

(** ** C89: an access allows what its word says *)

(** What the word of an access says: reading, if it speaks of reading; writing likewise. *)
Definition says (word : string) (a : access) : Prop :=
  (can_read a = true <-> occurs "read" word) /\ (can_write a = true <-> occurs "write" word).

Lemma says_str a : says (access_str a) a.
Proof. unfold says. rewrite <- !contains_occurs. destruct a; vm_compute; tauto. Qed.
Lemma parsed_str s a : access_parse s = Some a -> s = access_str a.
Proof.
  unfold access_parse. repeat (match goal with |- context [seqb ?x ?y] => destruct (seqb x y) eqn:?E end;
    [intros H; injection H as <-; now apply seqb_eq|]). discriminate.
Qed.

(** For every word read: the access can be read if and only if the word speaks of reading, and written likewise. *)
Theorem C89_access : forall s a, access_parse s = Some a -> says s a.
Proof. intros s a H. rewrite (parsed_str s a H). apply says_str. Qed.
Print Assumptions C89_access.
(** For every word written. *)
Theorem C89_word : forall a, says (access_str a) a.
Proof. exact says_str. Qed.
Print Assumptions C89_word.
(** In an element: the word is its text, without the white space around it. *)
Theorem C89_element : forall ats s a, access_parse_node (Elem "access" ats [Text s]) = Ok a ->
  exists w, trimmed s w /\ says w a.
Proof.
  intros ats s a H. unfold access_parse_node, enum_parse, get_text, text in H. cbn [children] in H.
  destruct (str_empty s); [discriminate H|]. cbn [bind] in H.
  exists (trim s). split; [now apply trim_spec|]. destruct (access_parse (trim s)) eqn:E; cbn [ok_or] in H; [|discriminate H].
  injection H as <-. now apply C89_access.
Qed.
Print Assumptions C89_element.
(** In data of serde. *)
Theorem C89_serde : forall s a, get_access (DStr s) = Ok a -> says s a.
Proof.
  intros s a H. unfold get_access, variant in H. destruct (access_parse s) eqn:E; cbn in H; [|discriminate H].
  injection H as <-. now apply C89_access.
Qed.
Print Assumptions C89_serde.
(** Every access allows reading or writing. *)
Theorem C89_some : forall a, can_read a = true \/ can_write a = true.
Proof. intros []; vm_compute; auto. Qed.
Print Assumptions C89_some.
(** Two accesses allow the same only if their words differ in how often they allow it. *)
Theorem C89_once : forall a b, can_read a = can_read b -> can_write a = can_write b ->
  (occurs "Once" (access_str a) <-> occurs "Once" (access_str b)) -> a = b.
Proof.
  intros a b. rewrite <- !contains_occurs.
  destruct a, b; vm_compute; intros R W [H K]; try reflexivity; try discriminate R; try discriminate W;
    try (discriminate (H eq_refl)); discriminate (K eq_refl).
Qed.
Print Assumptions C89_once.
Example C89_access_example :
  access_parse_node (Elem "access" [] [Text " read-writeOnce "]) = Ok ReadWriteOnce /\
  get_access (DStr "writeOnce") = Ok WriteOnce /\ says "writeOnce" WriteOnce /\ ~ occurs "read" "writeOnce" /\
  can_read WriteOnce = can_read WriteOnly /\ can_write WriteOnce = can_write WriteOnly /\
  ~ (occurs "Once" (access_str WriteOnce) <-> occurs "Once" (access_str WriteOnly)).
Proof.
  split; [reflexivity|]. split; [reflexivity|]. split; [apply (says_str WriteOnce)|].
  rewrite <- !contains_occurs. vm_compute. repeat split; try discriminate. intros [H _]. now discriminate (H eq_refl).
Qed.

(** ** The processor family *)

Theorem C89_family : forall c, is_cortex_m c = true <-> exists model, cpu_name c = ("CM" ++ model)%string.
Proof. intros c. apply starts_with_spec. Qed.
Print Assumptions C89_family.

(** ** Single instances and arrays *)

(** With dimensions or without: the element is there, and is an array if and only if there are dimensions. *)
Theorem C89_maybe : forall A (i : A) (o : option dim_element),
  info (maybe i o) = i /\ (is_array (maybe i o) = true <-> o <> None) /\ (is_single (maybe i o) = true <-> o = None) /\
  (forall d, maybe i o = Array i d <-> o = Some d).
Proof.
  intros A i [d|]; unfold maybe, array, single; cbn; (split; [reflexivity|]); (split; [|split; [|intros d']]);
    split; intros H; solve [reflexivity | discriminate | congruence | exfalso; now apply H].
Qed.
Print Assumptions C89_maybe.
Theorem C89_either : forall A (x : maybe_array A), is_array x = negb (is_single x) /\
  exists i o, x = maybe i o /\ forall i' o', x = maybe i' o' -> i' = i /\ o' = o.
Proof.
  intros A [i|i d]; split; try reflexivity;
    [exists i, None|exists i, (Some d)]; (split; [reflexivity|]); intros i' [d'|]; cbn; intros H; inversion H; auto.
Qed.
Print Assumptions C89_either.

(** ** The options of the parser *)

(** A call on the options. *)
Inductive call := CLevel (l : level) | CExpand (b : bool) | CProperties (b : bool) | CIgnore (b : bool).
Definition made (c : pconfig) (k : call) : pconfig :=
  match k with
  | CLevel l => set_level l c
  | CExpand b => set_expand b c
  | CProperties b => set_expand_properties b c
  | CIgnore b => set_ignore_enums b c
  end.
(** What the last call of a kind said; [now] if there is none. *)
Inductive last_said {A} (says : call -> A -> Prop) (now : A) : list call -> A -> Prop :=
  | ls_none ks : (forall k a, In k ks -> ~ says k a) -> last_said says now ks now
  | ls_some before k after a : says k a -> (forall k' a', In k' after -> ~ says k' a') ->
      last_said says now (before ++ k :: after) a.

Lemma last_said_gen {A} (says : call -> A -> Prop) (get : pconfig -> A) (pick : call -> option A) :
  (forall k a, says k a <-> pick k = Some a) ->
  (forall c k, get (made c k) = match pick k with Some a => a | None => get c end) ->
  forall ks c, last_said says (get c) ks (get (fold_left made ks c)).
Proof.
  intros S G ks. induction ks as [|k ks IH] using rev_ind; intros c.
  - cbn. constructor. intros k a [].
  - rewrite fold_left_app. cbn. rewrite G. destruct (pick k) as [a|] eqn:E.
    + apply ls_some; [now apply S|intros ? ? []].
    + destruct (IH c) as [ks N|b k' af a K N].
      * constructor. intros k0 a I K. apply in_app_iff in I as [I|[<-|[]]]; [exact (N k0 a I K)|].
        apply S in K. congruence.
      * rewrite <- app_assoc. cbn. apply ls_some; auto. intros k0 a0 I K0.
        apply in_app_iff in I as [I|[<-|[]]]; [exact (N k0 a0 I K0)|]. apply S in K0. congruence.
Qed.

(** After any calls, each option is what the last call for it said, and else as it was. *)
Theorem C89_options : forall ks c, let e := fold_left made ks c in
  last_said (fun k l => k = CLevel l) (pc_level c) ks (pc_level e) /\
  last_said (fun k b => k = CExpand b) (pc_expand c) ks (pc_expand e) /\
  last_said (fun k b => k = CProperties b) (pc_expand_properties c) ks (pc_expand_properties e) /\
  last_said (fun k b => k = CIgnore b) (pc_ignore_enums c) ks (pc_ignore_enums e).
Proof.
  intros ks c. repeat split;
    [apply last_said_gen with (pick := fun k => match k with CLevel l => Some l | _ => None end)
    |apply last_said_gen with (pick := fun k => match k with CExpand l => Some l | _ => None end)
    |apply last_said_gen with (pick := fun k => match k with CProperties l => Some l | _ => None end)
    |apply last_said_gen with (pick := fun k => match k with CIgnore l => Some l | _ => None end)];
    try (intros c' []; reflexivity); intros [] a; split; intros H; try discriminate; try (now injection H as ->).
Qed.
Print Assumptions C89_options.
(** Without a call: weak checks, no expansion, nothing left out. *)
Theorem C89_defaults : forall m fuel document text, parse m fuel document text =
  parse_with_config m fuel document
    (fold_left made [CLevel Weak; CExpand false; CProperties false; CIgnore false] (PConfig Strict true true true)) text.
Proof. reflexivity. Qed.
Print Assumptions C89_defaults.
Example C89_options_example :
  fold_left made [CLevel Strict; CExpand false; CIgnore true; CExpand true; CLevel Disabled] default_parse_config =
  PConfig Disabled true false true.
Proof. reflexivity. Qed.
Example C89_family_example : is_cortex_m (Cpu "CM0PLUS" "r0p0" Little true false None None None None None None None 4 false None None) = true /\
  is_cortex_m (Cpu "CA7" "r0p0" Little true false None None None None None None None 4 false None None) = false.
Proof. split; reflexivity. Qed.
Example C89_maybe_example : maybe 3 (Some (DimElement 2 4 None None None)) = Array 3 (DimElement 2 4 None None None) /\
  maybe 3 None = Single 3.
Proof. split; reflexivity. Qed.
