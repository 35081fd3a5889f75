(** C96: proofs. *)
From Verif Require Import Base BaseFacts Types SpecArray SpecExpand SpecFlat SpecRoom.
Import ListNotations.

Lemma pairs_app {A} (R : A -> A -> Prop) l l' : ForallOrdPairs R l -> ForallOrdPairs R l' ->
  (forall x y, In x l -> In y l' -> R x y) -> ForallOrdPairs R (l ++ l').
Proof.
  induction 1 as [|x l F P IH]; intros P' H; [exact P'|]. cbn [app]. constructor.
  - apply Forall_app. split; [exact F|]. apply Forall_forall. intros y I. apply H; [now left|exact I].
  - apply IH; [exact P'|]. intros a b I J. apply H; [now right|exact J].
Qed.
Lemma pairs_flat {A B} (f : A -> list B) (Q : A -> A -> Prop) (R : B -> B -> Prop) l : ForallOrdPairs Q l ->
  (forall a, In a l -> ForallOrdPairs R (f a)) -> (forall a b x y, In a l -> Q a b -> In x (f a) -> In y (f b) -> R x y) ->
  ForallOrdPairs R (flat_map f l).
Proof.
  induction 1 as [|a l F P IH]; intros H K; [constructor|]. cbn [flat_map]. apply pairs_app.
  - apply H. now left.
  - apply IH; [intros b I; apply H; now right|]. intros b c x y I. apply K. now right.
  - intros x y X Y. apply in_flat_map in Y as (b & I & Y). rewrite Forall_forall in F. exact (K a b x y (or_introl eq_refl) (F b I) X Y).
Qed.
Lemma pairs_nth {A} (R : A -> A -> Prop) l :
  (forall j k x y, (j < k)%nat -> nth_error l j = Some x -> nth_error l k = Some y -> R x y) -> ForallOrdPairs R l.
Proof.
  induction l as [|x l IH]; intros H; constructor.
  - apply Forall_forall. intros y I. apply In_nth_error in I as [k E]. exact (H 0%nat (S k) x y ltac:(lia) eq_refl E).
  - apply IH. intros j k a b L E F. exact (H (S j) (S k) a b ltac:(lia) E F).
Qed.
Lemma pairs_impl {A} (R S : A -> A -> Prop) l : ForallOrdPairs R l -> (forall x y, R x y -> S x y) -> ForallOrdPairs S l.
Proof. induction 1 as [|x l F P IH]; intros H; constructor; [|now apply IH]. revert F. apply Forall_impl. auto. Qed.
Lemma pairs_map {A B} (f : A -> B) (R : B -> B -> Prop) l : ForallOrdPairs (fun x y => R (f x) (f y)) l <-> ForallOrdPairs R (map f l).
Proof.
  induction l as [|x l IH]; [split; constructor|]. cbn [map]. split; intros H; inversion H as [|? ? F P]; subst; constructor.
  - now apply Forall_map.
  - now apply IH.
  - apply (proj1 (Forall_map f (R (f x)) l)). exact F.
  - now apply IH.
Qed.

(** Instances of one element *)
Lemma at_below {A} (l : list A) n k : len_N l = n -> nth_error l k <> None -> N.of_nat k < n.
Proof. intros <- H. apply nth_error_Some in H. unfold len_N. lia. Qed.
Lemma spot_at {A} (name : A -> string) (place : A -> N) x l s : spots name place x l -> In s l ->
  forall n, place (info x) <= snd s /\ snd s + n <= place (info x) + spread x n.
Proof.
  destruct x as [i|i d]; cbn [spots info spread].
  - intros -> [<-|[]] n. cbn [snd]. lia.
  - intros [L H] I n. apply In_nth_error in I as [k E].
    assert (K : N.of_nat k < de_dim d) by (apply (at_below l); [exact L|congruence]).
    destruct (H _ K) as (idx & nm & _ & _ & F). unfold nth_N in F. rewrite Nnat.Nat2N.id, E in F. injection F as ->.
    cbn [snd]. destruct (N.eqb_spec (de_dim d) 0) as [Z|Z]; [lia|]. split; [lia|]. nia.
Qed.
Lemma spots_apart {A} (name : A -> string) (place : A -> N) x l n : spots name place x l -> spaced x n ->
  ForallOrdPairs (fun s s' => snd s + n <= snd s') l.
Proof.
  destruct x as [i|i d]; cbn [spots spaced].
  - intros -> _. repeat constructor.
  - intros [L H] S. apply pairs_nth. intros j k x y J X Y.
    assert (B : forall j x, nth_error l j = Some x -> N.of_nat j < de_dim d /\ snd x = place i + N.of_nat j * de_increment d).
    { intros j' x' E. assert (K : N.of_nat j' < de_dim d) by (apply (at_below l); [exact L|congruence]).
      destruct (H _ K) as (idx & nm & _ & _ & F). unfold nth_N in F. rewrite Nnat.Nat2N.id, E in F. injection F as ->. now split. }
    apply B in X as [X1 ->], Y as [Y1 ->]. destruct S as [S|S]; [lia|].
    assert (N.of_nat j + 1 <= N.of_nat k) by lia. nia.
Qed.

Lemma nested_le a t e z u b x : a <= t -> t + e <= a + z -> u + b <= x -> x <= e -> a <= t + u /\ t + u + b <= a + z.
Proof. lia. Qed.
(** A stretch inside another *)
Definition part (a b : N * N) : Prop := fst b <= fst a /\ fst a + snd a <= fst b + snd b.
Lemma part_apart a b a' b' : part a' a -> part b' b -> no_overlap a b -> no_overlap a' b'.
Proof. unfold part, no_overlap. lia. Qed.
Lemma parts_apart {A B} (f : A -> N * N) (g : B -> N * N) kids ls : Forall2 (fun k l => Forall (fun s => part (g s) (f k)) l) kids ls ->
  asunder (map f kids) -> Forall (fun l => asunder (map g l)) ls -> asunder (map g (List.concat ls)).
Proof.
  intros F. induction F as [|rc l kids ls P F IH]; intros U V; [constructor|]. cbn [map] in U. inversion U as [|? ? A1 A2]; subst.
  inversion V as [|? ? B1 B2]; subst. cbn [List.concat]. rewrite map_app. apply pairs_app; [exact B1|now apply IH|].
  intros x y X Y. apply in_map_iff in X as (s & <- & X), Y as (t & <- & Y). apply in_concat in Y as (lt & Il & Y).
  destruct (Forall2_in_r _ _ _ F _ Il) as (rc' & I' & P'). rewrite Forall_forall in P, P', A1.
  apply (part_apart (f rc) (f rc')); [now apply P|now apply P'|]. apply A1. now apply in_map.
Qed.
Section Room.
  Variable bytes : reg_props -> N.
  Notation room := (room bytes). Notation reach := (reach bytes). Notation stretch := (stretch bytes).
  Lemma room_cluster c : room (RCCluster c) = spread c (reach (c_children (info c))). Proof. reflexivity. Qed.
  Lemma reach_in kids k : In k kids -> begins k + room k <= reach kids.
  Proof.
    induction kids as [|x kids IH]; [intros []|]. change (reach (x :: kids)) with (N.max (begins x + room x) (reach kids)).
    intros [->|I]; [lia|]. apply IH in I. lia.
  Qed.
  (** The stretch of a spot *)
  Definition at_ (s : spot) : N * N := (s_offset s, bytes (r_properties (info (s_register s)))).
  Lemma layout_parts kids l : layout kids l -> exists ls, l = List.concat ls /\
    Forall2 (fun rc l => Forall (fun s => part (at_ s) (stretch rc)) l) kids ls.
  Proof.
    induction 1 as [|r rest ss l S _ IH|c rest ss sub l S _ IHs _ IH].
    - exists []. split; [reflexivity|constructor].
    - destruct IH as (ls & -> & F). eexists (_ :: ls). split; [reflexivity|]. constructor; [|exact F].
      apply Forall_map, Forall_forall. intros s I. unfold part, at_, stretch. cbn [fst snd s_offset s_register begins].
      exact (spot_at _ _ _ _ s S I (bytes (r_properties (info r)))).
    - destruct IH as (ls & -> & F). destruct IHs as (lsub & -> & G). eexists (_ :: ls). split; [reflexivity|]. constructor; [|exact F].
      apply Forall_forall. intros s I. apply in_flat_map in I as (t & It & I). apply in_map_iff in I as (u & <- & Iu).
      apply in_concat in Iu as (lu & Ilu & Iu). destruct (Forall2_in_r _ _ _ G _ Ilu) as (rc & Irc & P). rewrite Forall_forall in P.
      pose proof (P u Iu) as [P1 P2]. apply reach_in in Irc. unfold part, at_, stretch in *. cbn [fst snd s_offset s_register] in *.
      rewrite room_cluster. pose proof (spot_at _ _ _ _ t S It (reach (c_children (info c)))) as [T1 T2]. cbn [begins].
      exact (nested_le _ _ _ _ _ _ _ T1 T2 P2 Irc).
  Qed.
  Lemma layout_apart kids l : layout kids l -> orderly_block bytes kids -> asunder (map at_ l).
  Proof.
    assert (X : forall kids l, layout kids l -> Forall (orderly bytes) kids -> exists ls, l = List.concat ls /\
      Forall2 (fun rc l => Forall (fun s => part (at_ s) (stretch rc)) l) kids ls /\ Forall (fun l => asunder (map at_ l)) ls).
    { clear. induction 1 as [|r rest ss l S L IH|c rest ss sub l S Ls IHs L IH]; intros O.
      - exists []. repeat split; constructor.
      - inversion O as [|? ? O1 O2]; subst. destruct (IH O2) as (ls & -> & F & G).
        pose proof (layout_parts [RCRegister r] _ (la_register r [] ss [] S la_nil)) as (l1 & E1 & F1).
        inversion F1 as [|? y ? ? P F1']; subst. inversion F1'; subst. cbn [List.concat] in E1. rewrite !app_nil_r in E1.
        eexists (_ :: ls). split; [reflexivity|]. split; constructor; [now rewrite E1|exact F| |exact G].
        inversion O1 as [? Sp|]; subst. unfold asunder. rewrite <- !pairs_map. eapply (pairs_impl _ _ _ (spots_apart _ _ _ _ _ S Sp)).
        intros a b H. left. cbn [at_ fst snd s_offset s_register]. exact H.
      - inversion O as [|? ? O1 O2]; subst. destruct (IH O2) as (ls & -> & F & G). inversion O1 as [|? Sp As Ch]; subst.
        destruct (IHs Ch) as (lsub & -> & Fs & Gs).
        pose proof (layout_parts [RCCluster c] _ (la_cluster c [] ss _ [] S Ls la_nil)) as (l1 & E1 & F1).
        inversion F1 as [|? y ? ? P F1']; subst. inversion F1'; subst. cbn [List.concat] in E1. rewrite !app_nil_r in E1.
        eexists (_ :: ls). split; [reflexivity|]. split; constructor; [now rewrite E1|exact F| |exact G].
        unfold asunder. rewrite <- pairs_map. apply (pairs_flat _ (fun s s' => snd s + reach (c_children (info c)) <= snd s')).
        + exact (spots_apart _ _ _ _ _ S Sp).
        + intros a _. rewrite <- pairs_map. pose proof (parts_apart _ _ _ _ Fs As Gs) as H. unfold asunder in H. rewrite <- pairs_map in H.
          eapply (pairs_impl _ _ _ H). intros x z K. unfold no_overlap, at_ in *. cbn [fst snd s_offset s_register] in *. lia.
        + intros a b x z _ Q X Y. apply in_map_iff in X as (u & <- & X), Y as (v & <- & Y). left.
          apply in_concat in X as (lu & Il & X). destruct (Forall2_in_r _ _ _ Fs _ Il) as (rc & Irc & Pu). rewrite Forall_forall in Pu.
          pose proof (Pu u X) as [P1 P2]. apply reach_in in Irc. unfold at_, stretch in *. cbn [fst snd s_offset s_register] in *. lia. }
    intros L [A O]. destruct (X kids l L O) as (ls & -> & F & G). exact (parts_apart _ _ kids ls F A G).
  Qed.
  Lemma spots_stretch l regs : Forall2 (at_spot Debug) l regs -> map stretch (map (fun i => RCRegister (Single i)) regs) = map at_ l.
  Proof.
    induction 1 as [|s y l regs A F IH]; [reflexivity|]. cbn [map]. rewrite IH. f_equal.
    destruct A as (_ & (_ & O) & _ & _ & P & _). unfold stretch, at_. cbn [begins room spread info]. now rewrite (O eq_refl), P.
  Qed.
  Lemma asunder_app l l' : asunder (l ++ l') -> asunder l /\ asunder l'.
  Proof.
    unfold asunder. induction l as [|x l IH]; cbn [app]; intros H; [split; [constructor|exact H]|].
    inversion H as [|? ? F P]; subst. apply IH in P as [P Q]. split; [|exact Q]. constructor; [|exact P]. now apply Forall_app in F.
  Qed.
  Lemma crowded_layout kids : crowded bytes kids -> forall l, layout kids l -> ~ asunder (map at_ l).
  Proof.
    induction 1 as [i d kids I D B|c kids I D C IH]; intros l L A.
    - induction L as [|r rest ss l S L IHl|c rest ss sub l S Ls _ L IHl]; [destruct I| |].
      + rewrite map_app in A. apply asunder_app in A as [A A']. destruct I as [E|I]; [|exact (IHl I A')]. injection E as ->.
        clear IHl A'. destruct S as [Len S]. destruct (S 0) as (x & n & _ & _ & E0); [lia|]. destruct (S 1) as (x' & n' & _ & _ & E1); [lia|].
        unfold nth_N in E0, E1. cbn in E0, E1. destruct ss as [|s0 [|s1 ss]]; try discriminate. injection E0 as ->. injection E1 as ->.
        cbn [map] in A. inversion A as [|? ? F _]; subst. inversion F as [|? ? K _]; subst. unfold no_overlap, at_ in K.
        cbn [fst snd s_offset s_register info] in K. lia.
      + rewrite map_app in A. apply asunder_app in A as [_ A]. destruct I as [E|I]; [discriminate|exact (IHl I A)].
    - induction L as [|r rest ss l S L IHl|c' rest ss sub l S Ls _ L IHl]; [destruct I| |].
      + rewrite map_app in A. apply asunder_app in A as [_ A]. destruct I as [E|I]; [discriminate|exact (IHl I A)].
      + rewrite map_app in A. apply asunder_app in A as [A A']. destruct I as [E|I]; [|exact (IHl I A')]. injection E as ->. clear IHl A'.
        destruct ss as [|s ss].
        * destruct c as [c|c e]; cbn [spots] in S; [discriminate|]. destruct S as [S _]. specialize (D e eq_refl). cbn in S. lia.
        * cbn [flat_map] in A. rewrite map_app in A. apply asunder_app in A as [A _]. apply (IH sub Ls).
          unfold asunder in *. rewrite <- pairs_map in *. rewrite <- pairs_map in A. eapply (pairs_impl _ _ _ A).
          intros x y. unfold no_overlap, at_. cbn [fst snd s_offset s_register]. lia.
  Qed.
  Lemma crowded_out p out : flattened Debug p out -> crowded bytes (kids_of p) ->
    Forall (fun y => ~ asunder (map stretch (kids_of (Single y)))) out.
  Proof.
    intros (ss & _ & F) C. apply Forall_forall. intros y I. destruct (Forall2_in_r _ _ _ F _ I) as (s & _ & _ & _ & R).
    unfold kids_of in *. cbn [info]. destruct (p_registers (info p)) as [kids|].
    - destruct R as (l & regs & L & T & ->). cbn [or_empty] in *. rewrite (spots_stretch l regs T). now apply (crowded_layout kids).
    - exfalso. cbn in C. clear - C. inversion C; subst; match goal with H : In _ [] |- _ => destruct H end.
  Qed.
  (** The registers of an instance of a peripheral *)
  Lemma instance_block p out : flattened Debug p out -> orderly_block bytes (kids_of p) ->
    Forall (fun y => asunder (map stretch (kids_of (Single y))) /\ Forall (orderly bytes) (kids_of (Single y)) /\
      Forall (fun rc => begins rc + room rc <= reach (kids_of p)) (kids_of (Single y))) out.
  Proof.
    intros (ss & _ & F) O. apply Forall_forall. intros y I. destruct (Forall2_in_r _ _ _ F _ I) as (s & _ & _ & _ & R).
    unfold kids_of in *. cbn [info]. destruct (p_registers (info p)) as [kids|]; [|rewrite R; repeat split; constructor].
    destruct R as (l & regs & L & T & ->). cbn [or_empty] in *. rewrite (spots_stretch l regs T). split; [now apply (layout_apart kids)|].
    split; [apply Forall_map, Forall_forall; intros i _; constructor; exact Logic.I|].
    apply layout_parts in L as (ls & -> & G). apply Forall_forall. intros rc J.
    assert (K : In (stretch rc) (map at_ (List.concat ls))) by (rewrite <- (spots_stretch _ _ T); now apply in_map).
    apply in_map_iff in K as (u & E & K). apply in_concat in K as (lu & Ilu & K). destruct (Forall2_in_r _ _ _ G _ Ilu) as (k & Ik & P).
    rewrite Forall_forall in P. destruct (P u K) as [_ P2]. rewrite E in P2. apply reach_in in Ik. unfold stretch in P2. cbn [fst snd] in P2. lia.
  Qed.
  Lemma instance_bases p out : flattened Debug p out -> exists ss, spots p_name p_base_address p ss /\ map p_base_address out = map snd ss.
  Proof.
    intros (ss & S & F). exists ss. split; [exact S|]. clear S. induction F as [|s y ss out (_ & (_ & O) & _) F IH]; [reflexivity|].
    cbn [map]. now rewrite IH, (O eq_refl).
  Qed.
  Lemma device_asunder ps groups : Forall2 (flattened Debug) ps groups ->
    asunder (map (fun p => (p_base_address (info p), spread p (reach (kids_of p)))) ps) ->
    Forall (fun p => spaced p (reach (kids_of p)) /\ orderly_block bytes (kids_of p)) ps ->
    asunder (flat_map (addresses bytes) (map Single (List.concat groups))).
  Proof.
    intros F A O.
    assert (X : exists ls, flat_map (addresses bytes) (map Single (List.concat groups)) = List.concat ls /\
      Forall2 (fun p l => Forall (fun s => part s (p_base_address (info p), spread p (reach (kids_of p)))) l) ps ls /\
      Forall (fun l => asunder (map (fun s => s) l)) ls).
    { clear A. induction F as [|p out ps groups F _ IH]; [exists []; repeat split; constructor|].
      inversion O as [|? ? [Sp Ob] O2]; subst. destruct (IH O2) as (ls & E & G & H). clear IH.
      exists (flat_map (addresses bytes) (map Single out) :: ls).
      pose proof (instance_block p out F Ob) as B. destruct (instance_bases p out F) as (ss & S & Eb).
      split; [cbn [List.concat]; rewrite map_app, flat_map_app; f_equal; exact E|]. split; constructor; try assumption.
      - apply Forall_forall. intros a I. apply in_flat_map in I as (q & Iq & I). apply in_map_iff in Iq as (y & <- & Iy).
        unfold addresses in I. apply in_map_iff in I as (rc & <- & Ir). rewrite Forall_forall in B. destruct (B y Iy) as (_ & _ & K).
        rewrite Forall_forall in K. apply K in Ir. assert (J : In (p_base_address y) (map snd ss)) by (rewrite <- Eb; now apply in_map).
        apply in_map_iff in J as (s & Es & J). pose proof (spot_at _ _ _ _ s S J (reach (kids_of p))) as [T1 T2].
        unfold part. cbn [fst snd info]. rewrite Es in T1, T2. cbv beta in *. lia.
      - rewrite map_id. unfold asunder. rewrite flat_map_concat_map, map_map, <- flat_map_concat_map.
        apply (pairs_flat _ (fun y y' => p_base_address y + reach (kids_of p) <= p_base_address y')).
        + apply (proj2 (pairs_map p_base_address (fun x y => x + reach (kids_of p) <= y) out)). rewrite Eb.
          apply (proj1 (pairs_map snd (fun x y => x + reach (kids_of p) <= y) ss)). exact (spots_apart _ _ _ _ _ S Sp).
        + intros y I. rewrite Forall_forall in B. destruct (B y I) as (K & _). unfold addresses, asunder in *. rewrite <- pairs_map in *.
          eapply (pairs_impl _ _ _ K). intros a b. unfold no_overlap, stretch. cbn [fst snd info]. lia.
        + intros y y' a b Iy Q J J'. left. unfold addresses in J, J'. apply in_map_iff in J as (rc & <- & J), J' as (rc' & <- & J').
          rewrite Forall_forall in B. destruct (B y Iy) as (_ & _ & K). rewrite Forall_forall in K. apply K in J. cbn [fst snd info]. lia. }
    destruct X as (ls & -> & G & H). rewrite <- (map_id (List.concat ls)).
    exact (parts_apart _ (fun s => s) ps ls G A H).
  Qed.
End Room.
