(** Finding registers after expansion. *)
From Verif Require Import Base BaseFacts TreeFacts Types Arrays ArrayProofs IndexProofs InstanceProofs SpecArray SpecExpand SpecFlat Expand PlaceProofs ExpandProofs FlatProofs SpecWalk WalkProofs.

Lemma instance_name_fun d s idx n n' : name_of_instance d s idx n -> name_of_instance d s idx n' -> n = n'.
Proof.
  intros [(e & He & ->)|[Hno Hs]] [(e' & He' & ->)|[Hno' Hs']].
  - now rewrite (entry_unique _ _ _ _ He He').
  - destruct (Hno' _ He).
  - destruct (Hno _ He').
  - eapply filled_unique; eauto.
Qed.
Lemma spots_fun {A} (name : A -> string) place x l l' : spots name place x l -> spots name place x l' -> l = l'.
Proof.
  destruct x as [i|i d]; cbn [spots]; [now intros -> ->|]. intros [L H] [L' H'].
  assert (E : List.length l = List.length l') by (unfold len_N in *; lia).
  apply (nth_ext l l' (EmptyString, 0) (EmptyString, 0) E). intros k K.
  assert (Lk : N.of_nat k < de_dim d) by (unfold len_N in *; lia).
  destruct (H _ Lk) as (idx & n & T & N & X), (H' _ Lk) as (idx' & n' & T' & N' & X').
  rewrite <- (index_text_fun _ _ _ _ T T') in N'. rewrite <- (instance_name_fun _ _ _ _ _ N N') in X'.
  unfold nth_N in X, X'. rewrite Nat2N.id in X, X'.
  rewrite (nth_error_nth _ _ _ X), (nth_error_nth _ _ _ X'). reflexivity.
Qed.
Lemma layout_fun kids l : layout kids l -> forall l', layout kids l' -> l = l'.
Proof.
  induction 1 as [|r rest ss l S L IH|c rest ss sub l S L1 IH1 L IH]; intros l' K; inversion K; subst; [reflexivity| |].
  - match goal with A : spots _ _ r _ |- _ => rewrite (spots_fun _ _ _ _ _ S A) end. f_equal. auto.
  - match goal with A : spots _ _ c _ |- _ => rewrite (spots_fun _ _ _ _ _ S A) end.
    match goal with A : layout (c_children _) ?x |- _ => rewrite (IH1 x A) end. f_equal. auto.
Qed.

Lemma find_first_named {A} (name : A -> string) n l x : In x l -> name x = n -> NoDup (map name l) ->
  find_first (fun y => seqb (name y) n) l = Some x.
Proof.
  induction l as [|y l IH]; cbn [In map find_first]; intros I E D; [destruct I|]. inversion D as [|? ? D1 D2]; subst.
  destruct I as [->|I].
  - destruct (seqb (name x) (name x)) eqn:Q; [reflexivity|]. now rewrite seqb_refl in Q.
  - destruct (seqb (name y) (name x)) eqn:Q; [|now apply IH]. apply seqb_eq in Q. destruct D1. rewrite Q. now apply in_map.
Qed.
Lemma rc_registers_singles regs : rc_registers (map (fun i => RCRegister (Single i)) regs) = map Single regs.
Proof. induction regs as [|i regs IH]; cbn; [reflexivity|now rewrite IH]. Qed.
Lemma Forall2_mono {A B} (R S : A -> B -> Prop) l l' : (forall x y, R x y -> S x y) -> Forall2 R l l' -> Forall2 S l l'.
Proof. intros H. induction 1; constructor; auto. Qed.
Lemma forall2_pick {A B} (R : A -> B -> Prop) l l' : Forall2 R l l' -> (forall x, In x l -> exists y, In y l' /\ R x y) /\
  (forall y, In y l' -> exists x, In x l /\ R x y).
Proof.
  induction 1 as [|x y l l' H F [IH1 IH2]]; [split; intros ? []|]. split.
  - intros z [<-|I]; [exists y; split; [now left|exact H]|]. destruct (IH1 z I) as (w & J & K). exists w. split; [now right|exact K].
  - intros z [<-|I]; [exists x; split; [now left|exact H]|]. destruct (IH2 z I) as (w & J & K). exists w. split; [now right|exact K].
Qed.
Lemma forall2_names {A B} (f : A -> string) (g : B -> string) l l' : Forall2 (fun x y => g y = f x) l l' -> map g l' = map f l.
Proof. induction 1; cbn; congruence. Qed.

Lemma first_in {A} (f : A -> bool) l x : find_first f l = Some x -> In x l /\ f x = true.
Proof.
  induction l as [|y l IH]; cbn [find_first]; [discriminate|]. destruct (f y) eqn:Q; [intros H; injection H as <-; split; [now left|exact Q]|].
  intros H. destruct (IH H) as [I J]. split; [now right|exact J].
Qed.

Section Find.
  Variables (m : mode) (d d' : device) (groups : list (list peripheral_info)).
  Hypothesis E : d_peripherals d' = map Single (List.concat groups).
  Hypothesis F : Forall2 (flattened m) (d_peripherals d) groups.

  Lemma find_there p ss sss n b kids l s : In p (d_peripherals d) -> spots p_name p_base_address p ss -> In (n, b) ss ->
    Forall2 (spots p_name p_base_address) (d_peripherals d) sss -> NoDup (map fst (List.concat sss)) ->
    p_registers (info p) = Some kids -> layout kids l -> In s l -> NoDup (map (fun s => glue "_" (s_names s)) l) ->
    exists q r, get_peripheral d' n = Some (Single q) /\ agrees m (2 ^ 64) b (p_base_address q) /\
      get_register (p_children q) (glue "_" (s_names s)) = Some (Single r) /\ at_spot m s r.
  Proof.
    intros P S I SS D K L J U.
    assert (Names : map p_name (List.concat groups) = map fst (List.concat sss)).
    { clear P S I D K L J U E. revert sss SS. induction F as [|p0 out ps outs H F' IH]; intros sss SS; inversion SS as [|? s0 ? sss' S0 SS']; subst; [reflexivity|].
      cbn. rewrite !map_app. f_equal; [|now apply IH]. destruct H as (ss' & S' & G). rewrite (spots_fun _ _ _ _ _ S0 S').
      apply forall2_names. eapply Forall2_mono; [|exact G]. now intros x y (H & _). }
    destruct (proj1 (forall2_pick _ _ _ F) p P) as (out & O & (ss' & S' & G)).
    rewrite <- (spots_fun _ _ _ _ _ S S') in G. destruct (proj1 (forall2_pick _ _ _ G) _ I) as (q & Q & N & A & R).
    cbn [fst snd] in N, A. rewrite K in R. destruct R as (l' & regs & L' & At & Rq). rewrite <- (layout_fun _ _ L _ L') in At.
    destruct (proj1 (forall2_pick _ _ _ At) _ J) as (r & Ir & Ar). exists q, r. conjs; auto.
    - unfold get_peripheral. rewrite E.
      assert (X : In (Single q) (map Single (List.concat groups))) by (apply in_map, in_concat; eauto).
      apply (find_first_named (fun p => p_name (info p))); [exact X|exact N|]. rewrite map_map. cbn [info]. change (fun x => p_name x) with p_name. now rewrite Names.
    - unfold p_children. rewrite Rq. cbn [opt_default]. unfold get_register. rewrite rc_registers_singles.
      apply (find_first_named (fun r => r_name (info r))).
      + now apply in_map.
      + destruct Ar as (Nr & _). exact Nr.
      + rewrite map_map. cbn [info]. replace (map (fun i => r_name i) regs) with (map (fun s => glue "_" (s_names s)) l); [exact U|].
        symmetry. apply forall2_names. eapply Forall2_mono; [|exact At]. now intros x y (H & _).
  Qed.
  Lemma found_there n x (q : peripheral) (r : register) : get_peripheral d' n = Some q -> get_register (p_children (info q)) x = Some r ->
    exists p ss b kids l s, In p (d_peripherals d) /\ spots p_name p_base_address p ss /\ In (n, b) ss /\
      agrees m (2 ^ 64) b (p_base_address (info q)) /\ p_registers (info p) = Some kids /\ layout kids l /\ In s l /\
      x = glue "_" (s_names s) /\ at_spot m s (info r).
  Proof.
    intros Q R. apply first_in in Q as [Iq Nq]. rewrite E in Iq. apply in_map_iff in Iq as (i & <- & Ii).
    apply in_concat in Ii as (out & O & Ii). destruct (proj2 (forall2_pick _ _ _ F) _ O) as (p & P & (ss & S & G)).
    destruct (proj2 (forall2_pick _ _ _ G) _ Ii) as ([n' b] & Is & N & A & K). cbn [fst snd] in N, A.
    apply seqb_eq in Nq. cbn [info] in *. unfold p_children in R.
    destruct (p_registers (info p)) as [kids|] eqn:Kp; [|rewrite K in R; discriminate R].
    destruct K as (l & regs & L & At & Rq). rewrite Rq in R. cbn [opt_default] in R. unfold get_register in R. rewrite rc_registers_singles in R.
    apply first_in in R as [Ir Nr]. apply in_map_iff in Ir as (y & <- & Iy). apply seqb_eq in Nr. cbn [info] in *.
    destruct (proj2 (forall2_pick _ _ _ At) _ Iy) as (s & Js & Ats).
    exists p, ss, b, kids, l, s. conjs; auto; [congruence|]. destruct Ats as (H & _). congruence.
  Qed.
End Find.
