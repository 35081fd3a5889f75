(** Expanding descriptions that differ only in order and notation. *)
From Coq Require Import List NArith String Permutation Lia.
Import ListNotations.
From Verif Require Import Base BaseFacts Types TreeFacts SpecArray SpecDerive SpecExpand SpecParse SpecRound Expand SpecExact SpecAlike PlaceProofs ExactProofs.
Open Scope N_scope.

(** ** Lists in another order *)
Lemma perm_forall2 {A B} (R : A -> B -> Prop) l s : Permutation l s ->
  forall l', Forall2 R l l' -> exists s', Permutation l' s' /\ Forall2 R s s'.
Proof.
  induction 1 as [|x l s P IH|x y l|l s t P IH P' IH']; intros l' F.
  - inversion F; subst. now exists [].
  - inversion F as [|? y ? l1 X F']; subst. destruct (IH _ F') as (s' & Q & G). exists (y :: s'). split; [now constructor|now constructor].
  - inversion F as [|? a ? l1 X F']; subst. inversion F' as [|? b ? l2 Y F2]; subst. exists (b :: a :: l2).
    split; [apply perm_swap|constructor; [exact Y|now constructor]].
  - destruct (IH _ F) as (s' & Q & G). destruct (IH' _ G) as (t' & Q' & G'). exists t'. split; [now transitivity s'|exact G'].
Qed.
Lemma forall2_turn {A B} (R : A -> B -> Prop) l l' : Forall2 R l l' -> Forall2 (fun b a => R a b) l' l.
Proof. induction 1; constructor; auto. Qed.
Lemma shuffled_in {A} (R : A -> A -> Prop) l l' x : shuffled R l l' -> In x l -> exists x', In x' l' /\ R x x'.
Proof.
  intros (s & P & F) I. eapply Permutation_in in I; [|exact P]. clear P. induction F as [|a b s l' X F IH]; [destruct I|].
  destruct I as [->|I]; [exists b; split; [now left|exact X]|]. destruct (IH I) as (z & Z & Y). exists z. split; [now right|exact Y].
Qed.
Lemma forall2_self {A} (R : A -> A -> Prop) l : (forall x, In x l -> R x x) -> Forall2 R l l.
Proof. induction l as [|a l IH]; intros H; constructor; [apply H; now left|apply IH; intros; apply H; now right]. Qed.
Lemma shuffled_turn {A} (R S : A -> A -> Prop) l l' : (forall x y, In x l -> R x y -> S y x) -> shuffled R l l' -> shuffled S l' l.
Proof.
  intros H (s & P & F). assert (F' : Forall2 S l' s).
  { assert (K : forall x y, In x s -> R x y -> S y x) by (intros x y I; apply H; eapply Permutation_in; [symmetry; exact P|exact I]).
    clear - F K. induction F as [|a b s l' X F IH]; constructor; [apply K; [now left|exact X]|]. apply IH. intros x y I. apply K. now right. }
  apply forall2_turn in F'. destruct (perm_forall2 _ _ _ (Permutation_sym P) _ F') as (s' & Q & G).
  exists s'. split; [exact Q|]. now apply forall2_turn in G.
Qed.
Lemma shuffled_nil {A} (R : A -> A -> Prop) l l' : shuffled R l l' -> (l = [] <-> l' = []).
Proof.
  intros (s & P & F). split; intros ->.
  - apply Permutation_nil in P as ->. now inversion F.
  - inversion F; subst. now apply Permutation_sym, Permutation_nil in P.
Qed.
Lemma shuffled_app {A} (R : A -> A -> Prop) a a' b b' : shuffled R a a' -> shuffled R b b' -> shuffled R (a ++ b) (a' ++ b').
Proof. intros (s & P & F) (t & Q & G). exists (s ++ t). split; [now apply Permutation_app|now apply Forall2_app]. Qed.
Lemma forall2_shuffled {A} (R : A -> A -> Prop) l l' : Forall2 R l l' -> shuffled R l l'.
Proof. intros F. now exists l. Qed.
Lemma perm_concat {A} (l s : list (list A)) : Permutation l s -> Permutation (List.concat l) (List.concat s).
Proof.
  induction 1; cbn; [constructor|now apply Permutation_app_head| |etransitivity; eassumption].
  rewrite !app_assoc. apply Permutation_app_tail, Permutation_app_comm.
Qed.
Lemma shuffled_concat {A} (R : A -> A -> Prop) ls ls' : shuffled (shuffled R) ls ls' -> shuffled R (List.concat ls) (List.concat ls').
Proof.
  intros (s & P & F). apply perm_concat in P.
  assert (G : shuffled R (List.concat s) (List.concat ls')).
  { clear P. induction F; cbn; [now exists []|]. now apply shuffled_app. }
  destruct G as (t & Q & G). exists t. split; [now transitivity (List.concat s)|exact G].
Qed.
Lemma shuffled_map {A B} (R : A -> A -> Prop) (S : B -> B -> Prop) (g : A -> B) l l' :
  (forall x y, R x y -> S (g x) (g y)) -> shuffled R l l' -> shuffled S (map g l) (map g l').
Proof.
  intros H (s & P & F). exists (map g s). split; [now apply Permutation_map|]. clear P. induction F; cbn; constructor; auto.
Qed.
Lemma shuffled_more {A} (R S : A -> A -> Prop) l l' : (forall x y, R x y -> S x y) -> shuffled R l l' -> shuffled S l l'.
Proof. intros H (s & P & F). exists s. split; [exact P|]. clear P. induction F; constructor; auto. Qed.
(** Results element by element *)
Lemma shuffled_lift {A B} (R : A -> A -> Prop) (S : B -> B -> Prop) (P Q : A -> B -> Prop) l l' ys :
  (forall x x' y, R x x' -> P x y -> exists y', Q x' y' /\ S y y') -> shuffled R l l' -> Forall2 P l ys ->
  exists ys', Forall2 Q l' ys' /\ shuffled S ys ys'.
Proof.
  intros H (s & E & F) G. destruct (perm_forall2 _ _ _ E _ G) as (zs & Z & G').
  assert (K : exists ys', Forall2 Q l' ys' /\ Forall2 S zs ys').
  { clear - H F G'. revert zs G'. induction F as [|x x' s l' X F IH]; intros zs G; inversion G as [|? y ? ? Y G']; subst.
    - exists []. split; constructor.
    - destruct (IH _ G') as (ys' & U & V). destruct (H _ _ _ X Y) as (y' & U' & V'). exists (y' :: ys'). split; now constructor. }
  destruct K as (ys' & U & V). exists ys'. split; [exact U|]. exists zs. now split.
Qed.

(** ** Alike is symmetric *)
Lemma mapped_mapped {A} (f g : A -> A) x : mapped f (mapped g x) = mapped (fun i => f (g i)) x.
Proof. now destruct x. Qed.
Lemma mapped_id {A} (f : A -> A) x : f (info x) = info x -> mapped f x = x.
Proof. destruct x; cbn; now intros ->. Qed.
Lemma info_mapped {A} (f : A -> A) x : info (mapped f x) = f (info x).
Proof. now destruct x. Qed.
Lemma dims_mapped {A} (f : A -> A) x : dims (mapped f x) = dims x.
Proof. now destruct x. Qed.
Lemma field_alike_refl f : field_alike f f.
Proof. exists (br_type (f_bit_range (info f))). symmetry. apply mapped_id. destruct (info f) as [? ? [? ?] ?]. reflexivity. Qed.
Lemma field_alike_sym f f' : field_alike f f' -> field_alike f' f.
Proof.
  intros (t & ->). exists (br_type (f_bit_range (info f))). rewrite mapped_mapped. symmetry. apply mapped_id.
  destruct (info f) as [? ? [? ?] ?]. reflexivity.
Qed.
Lemma both_turn {A} (R S : A -> A -> Prop) o o' : (forall x y, o = Some x -> R x y -> S y x) -> both R o o' -> both S o' o.
Proof. destruct o, o'; cbn; auto. Qed.
Lemma register_alike_sym r r' : register_alike r r' -> register_alike r' r.
Proof.
  intros (fs & B & ->). exists (r_fields (info r)). rewrite info_mapped. split.
  - revert B. apply both_turn. intros x y _. apply shuffled_turn. intros a b _. apply field_alike_sym.
  - rewrite mapped_mapped. symmetry. apply mapped_id. now destruct (info r).
Qed.
Lemma rc_alike_sym x : forall y, rc_alike x y -> rc_alike y x.
Proof.
  induction x as [r|c IH] using rc_tree_ind; intros y H; inversion H as [? r' X|? s l P F]; subst.
  - constructor. now apply register_alike_sym.
  - assert (G : shuffled rc_alike l (c_children (info c))).
    { apply (shuffled_turn rc_alike); [|now exists s]. intros a b I. rewrite Forall_forall in IH. now apply IH. }
    destruct G as (t & Q & G).
    replace c with (mapped (fun i => with_children i (c_children (info c))) (mapped (fun i => with_children i l) c)) at 2.
    + apply ra_cluster with (s := t); [now destruct c|exact G].
    + rewrite mapped_mapped. apply mapped_id. unfold cluster_info. now destruct (info c).
Qed.
Lemma peripheral_alike_sym p p' : peripheral_alike p p' -> peripheral_alike p' p.
Proof.
  intros (fs & B & ->). exists (p_registers (info p)). rewrite info_mapped. split.
  - revert B. apply both_turn. intros x y _. apply shuffled_turn. intros a b _. apply rc_alike_sym.
  - rewrite mapped_mapped. symmetry. apply mapped_id. now destruct (info p).
Qed.
Lemma device_alike_sym d d' : device_alike d d' -> device_alike d' d.
Proof.
  intros [S H]. split; [unfold same_but_peripherals in *; intuition congruence|].
  revert H. apply shuffled_turn. intros a b _. apply peripheral_alike_sym.
Qed.

(** ** Names and places *)
Lemma called_mapped {A} (name : A -> string) (f : A -> A) x n : (forall i, name (f i) = name i) ->
  is_called name x n -> is_called name (mapped f x) n.
Proof.
  intros H [E|(i & d & k & idx & -> & L & T & N)]; [left; now rewrite info_mapped, H|].
  right. exists (f i), d, k, idx. rewrite H. auto.
Qed.
Lemma called_field f f' n : field_alike f f' -> is_called f_name f n -> is_called f_name f' n.
Proof. intros (t & ->). now apply called_mapped. Qed.
Lemma called_register f f' n : register_alike f f' -> is_called r_name f n -> is_called r_name f' n.
Proof. intros (t & _ & ->). now apply called_mapped. Qed.
Lemma called_peripheral f f' n : peripheral_alike f f' -> is_called p_name f n -> is_called p_name f' n.
Proof. intros (t & _ & ->). now apply called_mapped. Qed.
Definition cluster_alike (c c' : cluster) : Prop := rc_alike (RCCluster c) (RCCluster c').
Lemma cluster_alike_inv c c' : cluster_alike c c' -> exists l, shuffled rc_alike (c_children (info c)) l /\
  c' = mapped (fun i => with_children i l) c.
Proof. intros H. inversion H; subst. eexists. split; [eexists; split; eassumption|reflexivity]. Qed.
Lemma cluster_alike_make (c : cluster) l : shuffled rc_alike (c_children (info c)) l ->
  cluster_alike c (mapped (fun i => with_children i l) c).
Proof. intros (s & P & F). now apply ra_cluster with (s := s). Qed.
Lemma called_cluster c c' n : cluster_alike c c' -> is_called c_name c n -> is_called c_name c' n.
Proof. intros H. apply cluster_alike_inv in H as (l & _ & ->). now apply called_mapped. Qed.
Lemma both_or_empty {A} (R : A -> A -> Prop) o o' : both (shuffled R) o o' -> shuffled R (or_empty o) (or_empty o').
Proof. destruct o, o'; cbn; intros H; try contradiction; [exact H|now exists []]. Qed.
Lemma fields_of r r' : register_alike r r' -> shuffled field_alike (or_empty (r_fields (info r))) (or_empty (r_fields (info r'))).
Proof. intros (fs & B & ->). rewrite info_mapped. now apply both_or_empty. Qed.
Lemma registers_of p p' : peripheral_alike p p' -> shuffled rc_alike (or_empty (p_registers (info p))) (or_empty (p_registers (info p'))).
Proof. intros (fs & B & ->). rewrite info_mapped. now apply both_or_empty. Qed.
Lemma children_of c c' : cluster_alike c c' -> shuffled rc_alike (c_children (info c)) (c_children (info c')).
Proof. intros H. apply cluster_alike_inv in H as (l & B & ->). rewrite info_mapped. exact B. Qed.

Section Places.
  Variables d d' : device.
  Hypothesis D : device_alike d d'.
  Lemma peripheral_there path p : peripheral_placed d path p -> exists p', peripheral_placed d' path p' /\ peripheral_alike p p'.
  Proof using D.
    intros (n & -> & I & C). destruct (shuffled_in _ _ _ _ (proj2 D) I) as (p' & I' & A). exists p'. split; [|exact A].
    exists n. split; [reflexivity|]. split; [exact I'|]. eapply called_peripheral; eassumption.
  Qed.
  Lemma cluster_in kids kids' (c : cluster) : shuffled rc_alike kids kids' -> In (RCCluster c) kids ->
    exists c', In (RCCluster c') kids' /\ cluster_alike c c'.
  Proof. intros S I. destruct (shuffled_in _ _ _ _ S I) as (x & I' & A). inversion A; subst. eexists. split; [exact I'|exact A]. Qed.
  Lemma register_in kids kids' (r : register) : shuffled rc_alike kids kids' -> In (RCRegister r) kids ->
    exists r', In (RCRegister r') kids' /\ register_alike r r'.
  Proof. intros S I. destruct (shuffled_in _ _ _ _ S I) as (x & I' & A). inversion A; subst. eexists. split; eassumption. Qed.
  Lemma children_there path kids : children_placed d path kids -> exists kids', children_placed d' path kids' /\ shuffled rc_alike kids kids'.
  Proof using D.
    induction 1 as [path p H|path n kids c H IH I C].
    - destruct (peripheral_there _ _ H) as (p' & H' & A). eexists. split; [eapply cp_peripheral; exact H'|]. now apply registers_of.
    - destruct IH as (kids' & H' & S). destruct (cluster_in _ _ _ S I) as (c' & I' & A). eexists.
      split; [eapply cp_cluster; [exact H'|exact I'|eapply called_cluster; eassumption]|]. now apply children_of.
  Qed.
  Lemma cluster_there path c : cluster_placed d path c -> exists c', cluster_placed d' path c' /\ cluster_alike c c'.
  Proof using D.
    intros (b & n & kids & -> & H & I & C). destruct (children_there _ _ H) as (kids' & H' & S).
    destruct (cluster_in _ _ _ S I) as (c' & I' & A). exists c'. split; [|exact A]. exists b, n, kids'.
    split; [reflexivity|]. split; [exact H'|]. split; [exact I'|]. eapply called_cluster; eassumption.
  Qed.
  Lemma register_there path c : register_placed d path c -> exists c', register_placed d' path c' /\ register_alike c c'.
  Proof using D.
    intros (b & n & kids & -> & H & I & C). destruct (children_there _ _ H) as (kids' & H' & S).
    destruct (register_in _ _ _ S I) as (c' & I' & A). exists c'. split; [|exact A]. exists b, n, kids'.
    split; [reflexivity|]. split; [exact H'|]. split; [exact I'|]. eapply called_register; eassumption.
  Qed.
  Lemma field_there path f : field_placed d path f -> exists f', field_placed d' path f' /\ field_alike f f'.
  Proof using D.
    intros (b & n & r & -> & H & I & C). destruct (register_there _ _ H) as (r' & H' & S).
    destruct (shuffled_in _ _ _ _ (fields_of _ _ S) I) as (f' & I' & A). exists f'. split; [|exact A]. exists b, n, r'.
    split; [reflexivity|]. split; [exact H'|]. split; [exact I'|]. eapply called_field; eassumption.
  Qed.
  Lemma values_same f f' : field_alike f f' -> f_enumerated_values (info f') = f_enumerated_values (info f).
  Proof. intros (t & ->). now rewrite info_mapped. Qed.
  Lemma values_there path e : values_placed d path e -> values_placed d' path e.
  Proof using D.
    intros (b & n & f & -> & H & I & C). destruct (field_there _ _ H) as (f' & H' & A). exists b, n, f'.
    rewrite (values_same _ _ A). auto.
  Qed.
  Lemma resolves_there ctx s path : resolves_values d ctx s path -> resolves_values d' ctx s path.
  Proof using D.
    intros (parts & C & H). exists parts. split; [exact C|]. cbv zeta in *. destruct parts as [|n [|f [|r l]]]; try exact H.
    destruct H as (r & f & R & I & ->). destruct (register_there _ _ R) as (r' & R' & A).
    destruct (shuffled_in _ _ _ _ (fields_of _ _ A) I) as (f' & I' & (t & ->)). exists r'. eexists. split; [exact R'|]. split; [exact I'|].
    now rewrite info_mapped.
  Qed.
End Places.

(** ** Following references *)
Definition along {A} (R : A -> A -> Prop) : list (list string * A) -> list (list string * A) -> Prop :=
  Forall2 (fun a b => fst b = fst a /\ R (snd a) (snd b)).
Lemma follows_there {A} (R : A -> A -> Prop) ref self (step step' : list string -> string -> list string -> A -> Prop) :
  (forall x x', R x x' -> ref x' = ref x) ->
  (forall ctx s path x, step ctx s path x -> exists x', step' ctx s path x' /\ R x x') ->
  forall ctx o chain, follows ref self step ctx o chain -> exists chain', follows ref self step' ctx o chain' /\ along R chain chain'.
Proof.
  intros H K ctx o chain F. induction F as [ctx|ctx s path x l S N F IH].
  - exists []. split; constructor.
  - destruct IH as (chain' & F' & G). destruct (K _ _ _ _ S) as (x' & S' & X). exists ((path, x') :: chain').
    split; [|constructor; [now split|exact G]]. constructor; [exact S'|exact N|]. now rewrite (H _ _ X).
Qed.
Lemma along_paths {A} (R : A -> A -> Prop) l l' : along R l l' -> Forall2 R (paths l) (paths l').
Proof. induction 1 as [|a b l l' [_ X] F IH]; constructor; auto. Qed.
Lemma along_empty {A} (R : A -> A -> Prop) (empty : A -> Prop) : (forall x x', R x x' -> (empty x <-> empty x')) ->
  forall l l', along R l l' -> Forall (fun q => empty (snd q)) l <-> Forall (fun q => empty (snd q)) l'.
Proof.
  intros H. induction 1 as [|a b l l' [_ X] F IH]; [now split|]. rewrite !Forall_cons_iff, IH, (H _ _ X). reflexivity.
Qed.
Lemma along_snoc {A} (R : A -> A -> Prop) before last l' : along R (before ++ [last]) l' ->
  exists before' last', l' = before' ++ [last'] /\ along R before before' /\ fst last' = fst last /\ R (snd last) (snd last').
Proof.
  intros H. apply Forall2_app_inv_l in H as (b & t & F & G & ->). inversion G as [|? z ? ? [X Y] G']; subst. inversion G'; subst.
  exists b, z. auto.
Qed.
Lemma origin_there {A} (R : A -> A -> Prop) (empty : A -> Prop) x x' chain chain' own path :
  (forall y y', R y y' -> (empty y <-> empty y')) -> R x x' -> along R chain chain' ->
  origin empty x chain own path -> origin empty x' chain' own path.
Proof.
  intros H X F [(before & y & -> & E & B)|(-> & [->|(before & last & -> & N)])].
  - left. apply along_snoc in F as (b & [q z] & -> & F & E1 & E2). cbn in *. subst q. exists b, z. split; [reflexivity|].
    split; [now apply (H _ _ X)|now apply (along_empty _ _ H _ _ F)].
  - right. split; [reflexivity|]. left. now inversion F.
  - right. split; [reflexivity|]. right. apply along_snoc in F as (b & z & -> & F & _). exists b, z. split; [reflexivity|].
    rewrite <- (H _ _ X), <- (along_empty _ _ H _ _ F). exact N.
Qed.

(** ** Inheritance *)
Lemma nearest_same {A B} (get : A -> option B) l l' v : Forall2 (fun x x' => get x' = get x) l l' -> nearest get l v -> nearest get l' v.
Proof. induction 1 as [|x x' l l' E F IH]; cbn; [auto|]. rewrite E. intros [H|[H K]]; [now left|right; auto]. Qed.
Lemma nearest_list_same {A B} (get : A -> list B) l l' v : Forall2 (fun x x' => get x' = get x) l l' -> nearest_list get l v -> nearest_list get l' v.
Proof. induction 1 as [|x x' l l' E F IH]; cbn; [auto|]. rewrite E. intros [H|[H K]]; [now left|right; auto]. Qed.
Lemma nearest_both {A B} (get : A -> option B) (Q : B -> B -> Prop) l l' v : Forall2 (fun x x' => both Q (get x) (get x')) l l' ->
  nearest get l v -> exists v', nearest get l' v' /\ both Q v v'.
Proof.
  intros F. revert v. induction F as [|x x' l l' E F IH]; cbn; intros v H; [subst; exists None; now split|].
  destruct H as [(b & G & ->)|[G H]]; rewrite G in E; destruct (get x') as [b'|] eqn:G'; try contradiction.
  - exists (Some b'). split; [left; now exists b'|exact E].
  - destruct (IH _ H) as (v' & K & L). exists v'. split; [right; now split|exact L].
Qed.
Lemma nearest_shuffled {A B} (get : A -> list B) (Q : B -> B -> Prop) l l' v : Forall2 (fun x x' => shuffled Q (get x) (get x')) l l' ->
  nearest_list get l v -> exists v', nearest_list get l' v' /\ shuffled Q v v'.
Proof.
  intros F. revert v. induction F as [|x x' l l' E F IH]; cbn; intros v H; [subst; exists []; split; [reflexivity|now exists []]|].
  pose proof (shuffled_nil _ _ _ E) as Z. destruct H as [(G & ->)|[G H]].
  - exists (get x'). split; [left; split; [now rewrite <- Z|reflexivity]|exact E].
  - destruct (IH _ H) as (v' & K & L). exists v'. split; [right; split; [now apply Z|exact K]|exact L].
Qed.
Lemma nearest_props_same {A} (get : A -> reg_props) l l' v : Forall2 (fun x x' => get x' = get x) l l' -> nearest_props get l v -> nearest_props get l' v.
Proof.
  intros F (H1 & H2 & H3 & H4 & H5).
  assert (G : forall B (g : reg_props -> B), Forall2 (fun x x' => g (get x') = g (get x)) l l').
  { intros B g. clear - F. induction F as [|? ? ? ? E F IH]; constructor; [now rewrite E|exact IH]. }
  repeat split; (eapply nearest_same; [apply (G _ _)|eassumption]).
Qed.
Lemma nearest_dims_same {A} (name : A -> string) (R : maybe_array A -> maybe_array A -> Prop) x x' chain chain' y y' :
  (forall a a', R a a' -> dims a' = dims a /\ name (info a') = name (info a)) ->
  R x x' -> Forall2 R chain chain' -> dims y' = dims y -> nearest_dims name x chain y -> nearest_dims name x' chain' y'.
Proof.
  intros H X F E N. destruct (H _ _ X) as [E1 E2]. unfold nearest_dims in *. rewrite E1, E2, E. destruct (dims x); [exact N|].
  destruct N as [N1 N2]. split; [|exact N2]. intros O. destruct (N1 O) as (o & P & Q). exists o. split; [|exact Q].
  revert P. apply nearest_same. clear - F H. induction F as [|a a' l l' Y F IH]; constructor; [now apply H|exact IH].
Qed.
Lemma forall2_map {A B C D} (f : A -> C) (g : B -> D) (R : C -> D -> Prop) l l' :
  Forall2 (fun a b => R (f a) (g b)) l l' -> Forall2 R (map f l) (map g l').
Proof. induction 1; cbn; constructor; auto. Qed.
Lemma forall2_impl {A B} (R S : A -> B -> Prop) l l' : (forall a b, R a b -> S a b) -> Forall2 R l l' -> Forall2 S l l'.
Proof. intros H. induction 1; constructor; auto. Qed.

Definition field_info_alike (i i' : field_info) : Prop := field_alike (Single i) (Single i').
Definition register_info_alike (i i' : register_info) : Prop := register_alike (Single i) (Single i').
Definition peripheral_info_alike (i i' : peripheral_info) : Prop := peripheral_alike (Single i) (Single i').
Definition bits_as (t : bit_range_type) (i : field_info) : field_info :=
  with_bits i {| br_offset := br_offset (f_bit_range i); br_width := br_width (f_bit_range i); br_type := t |}.
Lemma infos {A} (R : maybe_array A -> maybe_array A -> Prop) (S : A -> A -> Prop) x x' l l' :
  (forall a b, R a b -> S (info a) (info b)) -> R x x' -> Forall2 R l l' -> Forall2 S (map info (x :: l)) (map info (x' :: l')).
Proof. intros H X F. apply forall2_map. constructor; [now apply H|]. eapply forall2_impl; [|exact F]. exact H. Qed.
Lemma field_from_there f f' chain chain' f1 : field_alike f f' -> Forall2 field_alike chain chain' -> field_from f chain f1 ->
  exists f1', field_from f' chain' f1' /\ field_alike f1 f1'.
Proof.
  intros (t & ->) F H. exists (mapped (bits_as t) f1). split; [|now exists t].
  assert (L : Forall2 (fun i i' => exists u, i' = bits_as u i) (map info (f :: chain)) (map info (mapped (bits_as t) f :: chain'))).
  { apply (infos field_alike); [|now exists t|exact F]. intros a b (u & ->). exists u. apply info_mapped. }
  assert (K : forall B (g : field_info -> B), (forall u i, g (bits_as u i) = g i) ->
    Forall2 (fun i i' => g i' = g i) (map info (f :: chain)) (map info (mapped (bits_as t) f :: chain'))).
  { intros B g G. eapply forall2_impl; [|exact L]. intros i i' (u & ->). apply G. }
  unfold field_from in *. cbv zeta in *. destruct H as (H0 & H1 & H2 & H3 & H4 & H5 & H6 & H7 & H8 & H9).
  fold (bits_as t). rewrite !info_mapped.
  repeat match goal with |- _ /\ _ => split end; try assumption;
    try (eapply nearest_same; [apply K; reflexivity|assumption]).
  - eapply (nearest_dims_same f_name field_alike f); [|now exists t|exact F|apply dims_mapped|exact H0].
    intros a b (u & ->). rewrite dims_mapped, info_mapped. now split.
  - cbn. now rewrite H2.
  - eapply nearest_list_same; [apply K; reflexivity|assumption].
Qed.
Lemma register_from_there r r' chain chain' r1 : register_alike r r' -> Forall2 register_alike chain chain' -> register_from r chain r1 ->
  exists r1', register_from r' chain' r1' /\ register_alike r1 r1'.
Proof.
  intros (fs & B & ->) F H.
  assert (L : Forall2 (fun i i' => exists u, both (shuffled field_alike) (r_fields i) u /\ i' = register_with i u)
    (map info (r :: chain)) (map info (mapped (fun i => register_with i fs) r :: chain'))).
  { apply (infos register_alike); [|now exists fs|exact F]. intros a b (u & U & ->). exists u. split; [exact U|now rewrite info_mapped]. }
  assert (K : forall B (g : register_info -> B), (forall u i, g (register_with i u) = g i) ->
    Forall2 (fun i i' => g i' = g i) (map info (r :: chain)) (map info (mapped (fun i => register_with i fs) r :: chain'))).
  { intros C g G. eapply forall2_impl; [|exact L]. intros i i' (u & _ & ->). apply G. }
  unfold register_from in *. cbv zeta in *. destruct H as (H0 & H1 & H2 & H3 & H4 & H5 & H6 & H7 & H8 & H9 & H10 & H11 & H12 & H13).
  assert (M : Forall2 (fun i i' => both (shuffled field_alike) (r_fields i) (r_fields i'))
    (map info (r :: chain)) (map info (mapped (fun i => register_with i fs) r :: chain'))).
  { eapply forall2_impl; [|exact L]. intros i i' (u & U & ->). exact U. }
  destruct (nearest_both r_fields _ _ _ _ M H13) as (gs & G1 & G2).
  exists (mapped (fun i => register_with i gs) r1). split; [|exists gs; split; [exact G2|reflexivity]].
  rewrite !info_mapped.
  repeat match goal with |- _ /\ _ => split end; try assumption;
    try (eapply nearest_same; [apply K; reflexivity|assumption]);
    try (eapply nearest_props_same; [apply K; reflexivity|assumption]).
  - eapply (nearest_dims_same r_name register_alike r); [|now exists fs|exact F|apply dims_mapped|exact H0].
    intros a b (u & _ & ->). rewrite dims_mapped, info_mapped. now split.
Qed.
Lemma peripheral_from_there p p' chain chain' p1 : peripheral_alike p p' -> Forall2 peripheral_alike chain chain' -> peripheral_from p chain p1 ->
  exists p1', peripheral_from p' chain' p1' /\ peripheral_alike p1 p1'.
Proof.
  intros (rs & B & ->) F H.
  assert (L : Forall2 (fun i i' => exists u, both (shuffled rc_alike) (p_registers i) u /\ i' = peripheral_with i u)
    (map info (p :: chain)) (map info (mapped (fun i => peripheral_with i rs) p :: chain'))).
  { apply (infos peripheral_alike); [|now exists rs|exact F]. intros a b (u & U & ->). exists u. split; [exact U|now rewrite info_mapped]. }
  assert (K : forall B (g : peripheral_info -> B), (forall u i, g (peripheral_with i u) = g i) ->
    Forall2 (fun i i' => g i' = g i) (map info (p :: chain)) (map info (mapped (fun i => peripheral_with i rs) p :: chain'))).
  { intros C g G. eapply forall2_impl; [|exact L]. intros i i' (u & _ & ->). apply G. }
  unfold peripheral_from in *. cbv zeta in *.
  destruct H as (H0 & H1 & H2 & H3 & H4 & H5 & H6 & H7 & H8 & H9 & H10 & H11 & H12 & H13 & H14 & H15).
  assert (M : Forall2 (fun i i' => both (shuffled rc_alike) (p_registers i) (p_registers i'))
    (map info (p :: chain)) (map info (mapped (fun i => peripheral_with i rs) p :: chain'))).
  { eapply forall2_impl; [|exact L]. intros i i' (u & U & ->). exact U. }
  destruct (nearest_both p_registers _ _ _ _ M H15) as (gs & G1 & G2).
  exists (mapped (fun i => peripheral_with i gs) p1). split; [|exists gs; split; [exact G2|reflexivity]].
  rewrite !info_mapped.
  repeat match goal with |- _ /\ _ => split end; try assumption;
    try (eapply nearest_same; [apply K; reflexivity|assumption]);
    try (eapply nearest_list_same; [apply K; reflexivity|assumption]);
    try (eapply nearest_props_same; [apply K; reflexivity|assumption]).
  - eapply (nearest_dims_same p_name peripheral_alike p); [|now exists rs|exact F|apply dims_mapped|exact H0].
    intros a b (u & _ & ->). rewrite dims_mapped, info_mapped. now split.
Qed.
Lemma cluster_from_there (c c' : cluster) chain chain' c1 : cluster_alike c c' -> Forall2 cluster_alike chain chain' -> cluster_from c chain c1 ->
  exists c1', cluster_from c' chain' c1' /\ cluster_alike c1 c1'.
Proof.
  intros X F H. pose proof X as X'. apply cluster_alike_inv in X as (rs & B & ->).
  assert (L : Forall2 (fun i i' => exists u, shuffled rc_alike (c_children i) u /\ i' = with_children i u)
    (map info (c :: chain)) (map info (mapped (fun i => with_children i rs) c :: chain'))).
  { apply (infos cluster_alike); [|exact X'|exact F]. intros a b Y. apply cluster_alike_inv in Y as (u & U & ->). exists u. split; [exact U|now rewrite info_mapped]. }
  assert (K : forall B (g : cluster_info -> B), (forall u i, g (with_children i u) = g i) ->
    Forall2 (fun i i' => g i' = g i) (map info (c :: chain)) (map info (mapped (fun i => with_children i rs) c :: chain'))).
  { intros C g G. eapply forall2_impl; [|exact L]. intros i i' (u & _ & ->). apply G. }
  unfold cluster_from in *. cbv zeta in *.
  destruct H as (H0 & H1 & H2 & H3 & H4 & H5 & H6 & H7 & H8).
  assert (M : Forall2 (fun i i' : cluster_info => shuffled rc_alike (c_children i) (c_children i'))
    (map info (c :: chain)) (map info (mapped (fun i => with_children i rs) c :: chain'))).
  { eapply forall2_impl; [|exact L]. intros i i' (u & U & ->). exact U. }
  destruct (nearest_shuffled (@c_children register_cluster) _ _ _ _ M H8) as (gs & G1 & G2).
  exists (mapped (fun i => with_children i gs) c1). split; [|now apply cluster_alike_make].
  rewrite !info_mapped.
  repeat match goal with |- _ /\ _ => split end; try assumption;
    try (eapply nearest_same; [apply K; reflexivity|assumption]);
    try (eapply nearest_props_same; [apply K; reflexivity|assumption]).
  - eapply (nearest_dims_same (@c_name register_cluster) cluster_alike); [|exact X'|exact F|apply dims_mapped|exact H0].
    intros a b Y. apply cluster_alike_inv in Y as (u & _ & ->). rewrite dims_mapped, info_mapped. now split.
Qed.

(** ** Expansion *)
Lemma instances_map {A} (one : A -> dim_element -> N -> A -> Prop) (g h : A -> A) x out :
  (forall i d k y, one (g i) d k y -> one (h i) d k (h y)) -> (forall i, h (g i) = h i) ->
  instances_of one (mapped g x) out -> instances_of one (mapped h x) (map h out).
Proof.
  intros H E. destruct x as [i|i d]; cbn.
  - intros ->. cbn. now rewrite E.
  - intros [L I]. split; [unfold len_N in *; now rewrite map_length|]. intros k K. destruct (I k K) as (y & Y & O). exists (h y).
    split; [|now apply H]. unfold nth_N in *. now rewrite nth_error_map, Y.
Qed.
Lemma forall2_mapped {A} (R : A -> A -> Prop) (h : A -> A) l : (forall x, In x l -> R x (h x)) -> Forall2 R l (map h l).
Proof. induction l as [|a l IH]; intros H; cbn; constructor; [apply H; now left|apply IH; intros; apply H; now right]. Qed.
Lemma singles {A} (R : maybe_array A -> maybe_array A -> Prop) l l' : shuffled (fun a b => R (Single a) (Single b)) l l' -> shuffled R (map Single l) (map Single l').
Proof. now apply shuffled_map. Qed.
(** Every instance has the content given to the array. *)
Lemma instances_content {A B} (get : A -> B) (one : A -> dim_element -> N -> A -> Prop) x out v :
  (forall i d k y, one i d k y -> get y = get i) -> get (info x) = v -> instances_of one x out -> forall y, In y out -> get y = v.
Proof.
  intros H E. destruct x as [i|i d]; cbn in *.
  - intros -> y [<-|[]]. exact E.
  - intros [L I] y Y. apply In_nth_error in Y as (k & K). destruct (I (N.of_nat k)) as (z & Z & O).
    + rewrite <- L. unfold len_N. assert (k < List.length out)%nat by (apply nth_error_Some; congruence). lia.
    + unfold nth_N in Z. rewrite Nat2N.id, K in Z. injection Z as <-. rewrite (H _ _ _ _ O). exact E.
Qed.
Section Expanded.
  Variables (m : mode) (d d' : device).
  Hypothesis D : device_alike d d'.
  Lemma values_expanded_there ctx e e' : values_expanded d ctx e e' -> values_expanded d' ctx e e'.
  Proof using D.
    intros (chain & F & V). eapply (follows_there eq) in F as (chain' & F' & A); [|intros; now subst|].
    - exists chain'. split; [exact F'|]. replace chain' with chain; [exact V|]. clear - A.
      induction A as [|[p x] [q y] l l' [E X] A IH]; cbn in *; subst; reflexivity.
    - intros c s path x [R P]. exists x. split; [|reflexivity]. split; [eapply resolves_there; eassumption|eapply values_there; eassumption].
  Qed.
  Lemma field_expanded_there ctx f f' out : field_alike f f' -> field_expanded m d ctx f out ->
    exists out', field_expanded m d' ctx f' out' /\ shuffled field_info_alike out out'.
  Proof using D.
    intros X (chain & f1 & ctx' & evs & F & V & O & E & I).
    eapply (follows_there field_alike _ _ _ (fun ctx s path x => resolves ctx s path /\ field_placed d' path x)) in F as (chain' & F' & A);
      [|intros x x' (t & ->); now rewrite info_mapped|].
    2:{ intros c s path x [R P]. destruct (field_there d d' D _ _ P) as (x' & P' & Y). exists x'. split; [split; [exact R|exact P']|exact Y]. }
    destruct (field_from_there _ _ _ _ _ X (along_paths _ _ _ A) V) as (f1' & V' & Y).
    assert (N : f_name (info f') = f_name (info f) /\ f_derived_from (info f') = f_derived_from (info f)).
    { destruct X as (t & ->). rewrite info_mapped. now split. }
    destruct N as [N1 N2].
    assert (O' : origin (fun x => f_enumerated_values (info x) = []) f' chain' (ctx ++ [f_name (info f)]) ctx').
    { eapply origin_there; [|exact X|exact A|exact O]. intros y y' Z. now rewrite (values_same _ _ Z). }
    assert (G : Forall2 (values_expanded d' ctx') (f_enumerated_values (info f1')) evs).
    { rewrite (values_same _ _ Y). eapply forall2_impl; [|exact E]. intros a b. apply values_expanded_there. }
    assert (R : exists out', instances_of (field_instance_of m) (mapped (fun i => field_with i evs) f1') out' /\ shuffled field_info_alike out out').
    { destruct Y as (t & ->). destruct f1 as [i|i e]; cbn in *.
      - eexists. split; [reflexivity|]. subst out. apply forall2_shuffled. constructor; [|constructor]. now exists t.
      - exists out. split; [exact I|]. apply forall2_shuffled, forall2_self. intros x _. apply field_alike_refl. }
    destruct R as (out' & R1 & R2). exists out'. split; [|exact R2]. unfold field_expanded. rewrite N1, N2.
    exists chain', f1', ctx', evs. repeat match goal with |- _ /\ _ => split end; assumption.
  Qed.
  Lemma register_expanded_there ctx r r' out : register_alike r r' -> register_expanded m d ctx r out ->
    exists out', register_expanded m d' ctx r' out' /\ shuffled register_info_alike out out'.
  Proof using D.
    intros X (chain & r1 & ctx' & fs & F & V & O & E & I).
    eapply (follows_there register_alike _ _ _ (fun ctx s path x => resolves ctx s path /\ register_placed d' path x)) in F as (chain' & F' & A);
      [|intros x x' (t & _ & ->); now rewrite info_mapped|].
    2:{ intros c s path x [R P]. destruct (register_there d d' D _ _ P) as (x' & P' & Y). exists x'. split; [split; [exact R|exact P']|exact Y]. }
    destruct (register_from_there _ _ _ _ _ X (along_paths _ _ _ A) V) as (r1' & V' & Y).
    assert (N : r_name (info r') = r_name (info r) /\ r_derived_from (info r') = r_derived_from (info r)).
    { destruct X as (t & _ & ->). rewrite info_mapped. now split. }
    destruct N as [N1 N2].
    assert (O' : origin (fun x => r_fields (info x) = None) r' chain' (ctx ++ [r_name (info r)]) ctx').
    { eapply origin_there; [|exact X|exact A|exact O]. intros y y' (u & U & ->). rewrite info_mapped. cbn.
      destruct (r_fields (info y)), u; cbn in U; try contradiction; split; (discriminate || reflexivity). }
    destruct Y as (gs & B & ->).
    assert (R : exists fs', both (shuffled field_alike) fs fs' /\
      match gs with None => fs' = None | Some l => exists groups, Forall2 (field_expanded m d' ctx') l groups /\ fs' = Some (map Single (List.concat groups)) end).
    { destruct (r_fields (info r1)) as [l|], gs as [l'|]; cbn in B; try contradiction; [|subst; exists None; now split].
      destruct E as (groups & E & ->).
      destruct (shuffled_lift field_alike (shuffled field_info_alike) _ (field_expanded m d' ctx') _ _ _ (field_expanded_there ctx') B E) as (groups' & G & S).
      exists (Some (map Single (List.concat groups'))). split; [|now exists groups'].
      apply (singles field_alike). now apply shuffled_concat. }
    destruct R as (fs' & B' & G).
    exists (map (fun i => register_with i fs') out). split.
    - unfold register_expanded. rewrite N1, N2. exists chain', (mapped (fun i => register_with i gs) r1), ctx', fs'.
      repeat match goal with |- _ /\ _ => split end; try assumption.
      + rewrite info_mapped. exact G.
      + rewrite mapped_mapped. revert I. apply instances_map; [|reflexivity].
        intros i e k y (idx & H). exists idx. cbn in *. intuition.
    - apply forall2_shuffled, forall2_mapped. intros x Z. exists fs'. split; [|reflexivity].
      replace (r_fields (info (Single x))) with fs; [exact B'|]. symmetry.
      eapply (instances_content r_fields); [| |exact I|exact Z]; [|now rewrite info_mapped].
      intros i e k y (idx & H). apply H.
  Qed.
  Lemma hoisted_there n off x x' y : register_info_alike x x' -> hoisted m n off x y ->
    exists y', hoisted m n off x' y' /\ register_info_alike y y'.
  Proof.
    intros (fs & B & E) H. injection E as ->. exists (register_with y fs). unfold hoisted in *. cbn in *.
    split; [intuition|]. exists fs. split; [|reflexivity]. cbn. destruct H as (_ & _ & _ & _ & _ & _ & _ & _ & _ & _ & _ & -> & _). exact B.
  Qed.
  Lemma child_expanded_there ctx rc out : child_expanded m d ctx rc out -> forall rc', rc_alike rc rc' ->
    exists out', child_expanded m d' ctx rc' out' /\ shuffled register_info_alike out out'.
  Proof using D.
    intros H. refine (child_ind m d (fun ctx rc out => forall rc', rc_alike rc rc' ->
      exists out', child_expanded m d' ctx rc' out' /\ shuffled register_info_alike out out') _ _ ctx rc out H); clear ctx rc out H.
    - intros ctx r out H rc' X. inversion X as [? r' Y|]; subst. destruct (register_expanded_there _ _ _ _ Y H) as (out' & G & S).
      exists out'. split; [now constructor|exact S].
    - intros ctx c chain c1 ctx' groups cs outs F V O _ IH I K rc' Z.
      assert (X : exists c', rc' = RCCluster c' /\ cluster_alike c c') by (inversion Z; subst; eexists; split; [reflexivity|exact Z]).
      destruct X as (c' & -> & X). clear Z.
      eapply (follows_there cluster_alike _ _ _ (fun ctx s path x => resolves ctx s path /\ cluster_placed d' path x)) in F as (chain' & F' & A);
        [|intros x x' Y; apply cluster_alike_inv in Y as (t & _ & ->); now rewrite info_mapped|].
      2:{ intros q s path x [R P]. destruct (cluster_there d d' D _ _ P) as (x' & P' & Y). exists x'. split; [split; [exact R|exact P']|exact Y]. }
      destruct (cluster_from_there _ _ _ _ _ X (along_paths _ _ _ A) V) as (c1' & V' & Y).
      assert (N : c_name (info c') = c_name (info c) /\ c_derived_from (info c') = c_derived_from (info c)).
      { apply cluster_alike_inv in X as (t & _ & ->). rewrite info_mapped. now split. }
      destruct N as [N1 N2].
      assert (O' : origin (fun x : cluster => c_children (info x) = []) c' chain' (ctx ++ [c_name (info c)]) ctx').
      { eapply origin_there; [|exact X|exact A|exact O]. intros y y' Z. apply (shuffled_nil _ _ _ (children_of _ _ Z)). }
      destruct (shuffled_lift rc_alike (shuffled register_info_alike) (fun rc out => forall rc', rc_alike rc rc' ->
        exists out', child_expanded m d' ctx' rc' out' /\ shuffled register_info_alike out out') (child_expanded m d' ctx') _ _ _ (fun x x' y a b => b x' a) (children_of _ _ Y) IH)
        as (groups' & G & S). apply shuffled_concat in S.
      assert (C : exists cs', instances_of (cluster_instance_of m) c1' cs' /\
        Forall2 (fun k k' : cluster_info => c_name k' = c_name k /\ c_address_offset k' = c_address_offset k) cs cs').
      { apply cluster_alike_inv in Y as (u & _ & ->). destruct c1 as [i|i e]; cbn in *.
        - subst cs. eexists. split; [reflexivity|]. constructor; [now split|constructor].
        - exists cs. split; [exact I|]. apply forall2_self. now split. }
      destruct C as (cs' & C1 & C2).
      assert (R : exists outs', Forall2 (fun (k : cluster_info) out => Forall2 (hoisted m (c_name k) (c_address_offset k)) (List.concat groups') out) cs' outs' /\
        Forall2 (shuffled register_info_alike) outs outs').
      { clear - K C2 S. revert cs' C2. induction K as [|k out cs outs H K IH]; intros cs' C2; inversion C2 as [|? k' ? ? [E1 E2] C3]; subst; [exists []; split; constructor|].
        destruct (IH _ C3) as (outs' & U & W).
        destruct (shuffled_lift register_info_alike register_info_alike _ (hoisted m (c_name k) (c_address_offset k)) _ _ _ (hoisted_there _ _) S H) as (out' & P & Q).
        exists (out' :: outs'). split; [constructor; [now rewrite E1, E2|exact U]|now constructor]. }
      destruct R as (outs' & R1 & R2). exists (List.concat outs'). split; [|apply shuffled_concat; now apply forall2_shuffled].
      eapply ce_cluster; [rewrite N1, N2; exact F'|exact V'|rewrite N1; exact O'|exact G|exact C1|exact R1].
  Qed.
  Lemma peripheral_expanded_there p p' out : peripheral_alike p p' -> peripheral_expanded m d p out ->
    exists out', peripheral_expanded m d' p' out' /\ shuffled peripheral_info_alike out out'.
  Proof using D.
    intros X (chain & r1 & ctx' & fs & F & V & O & E & I).
    eapply (follows_there peripheral_alike _ _ _ (fun _ s path x => path = [s] /\ peripheral_placed d' path x)) in F as (chain' & F' & A);
      [|intros x x' (t & _ & ->); now rewrite info_mapped|].
    2:{ intros c s path x [R P]. destruct (peripheral_there d d' D _ _ P) as (x' & P' & Y). exists x'. split; [split; [exact R|exact P']|exact Y]. }
    destruct (peripheral_from_there _ _ _ _ _ X (along_paths _ _ _ A) V) as (r1' & V' & Y).
    assert (N : p_name (info p') = p_name (info p) /\ p_derived_from (info p') = p_derived_from (info p)).
    { destruct X as (t & _ & ->). rewrite info_mapped. now split. }
    destruct N as [N1 N2].
    assert (O' : origin (fun x => p_registers (info x) = None) p' chain' [p_name (info p)] ctx').
    { eapply origin_there; [|exact X|exact A|exact O]. intros y y' (u & U & ->). rewrite info_mapped. cbn.
      destruct (p_registers (info y)), u; cbn in U; try contradiction; split; (discriminate || reflexivity). }
    destruct Y as (gs & B & ->).
    assert (R : exists fs', both (shuffled rc_alike) fs fs' /\
      match gs with None => fs' = None | Some l => exists groups, Forall2 (child_expanded m d' ctx') l groups /\ fs' = Some (map (fun i => RCRegister (Single i)) (List.concat groups)) end).
    { destruct (p_registers (info r1)) as [l|], gs as [l'|]; cbn in B; try contradiction; [|subst; exists None; now split].
      destruct E as (groups & E & ->).
      destruct (shuffled_lift rc_alike (shuffled register_info_alike) _ (child_expanded m d' ctx') _ _ _ (fun x x' y a b => child_expanded_there ctx' x y b x' a) B E) as (groups' & G & S).
      exists (Some (map (fun i => RCRegister (Single i)) (List.concat groups'))). split; [|now exists groups'].
      cbn. eapply shuffled_map; [|apply shuffled_concat; exact S]. intros x y. now constructor. }
    destruct R as (fs' & B' & G).
    exists (map (fun i => peripheral_with i fs') out). split.
    - unfold peripheral_expanded. rewrite N1, N2. exists chain', (mapped (fun i => peripheral_with i gs) r1), ctx', fs'.
      repeat match goal with |- _ /\ _ => split end; try assumption.
      + rewrite info_mapped. exact G.
      + rewrite mapped_mapped. revert I. apply instances_map; [|reflexivity].
        intros i e k y (idx & H). exists idx. cbn in *. intuition.
    - apply forall2_shuffled, forall2_mapped. intros x Z. exists fs'. split; [|reflexivity].
      replace (p_registers (info (Single x))) with fs; [exact B'|]. symmetry.
      eapply (instances_content p_registers); [| |exact I|exact Z]; [|now rewrite info_mapped].
      intros i e k y (idx & H). apply H.
  Qed.
End Expanded.
Lemma device_expanded_there m d d' e : device_alike d d' -> device_expanded m d e ->
  exists e', device_expanded m d' e' /\ device_alike e e'.
Proof.
  intros D (S & groups & F & E).
  destruct (shuffled_lift peripheral_alike (shuffled peripheral_info_alike) _ (peripheral_expanded m d') _ _ _ (peripheral_expanded_there m d d' D) (proj2 D) F) as (groups' & G & H).
  exists (with_peripherals d' (map Single (List.concat groups'))). split.
  - split; [repeat split|]. now exists groups'.
  - split.
    + destruct D as [D _]. unfold same_but_peripherals in *. cbn. intuition congruence.
    + rewrite E. cbn. apply (singles peripheral_alike). now apply shuffled_concat.
Qed.

(** ** Devices whose siblings have no name in common *)
Lemma pairs_perm {A} (R : A -> A -> Prop) l s : (forall x y, R x y -> R y x) -> Permutation l s -> ForallOrdPairs R l -> ForallOrdPairs R s.
Proof.
  intros H. induction 1 as [|x l s P IH|x y l|l s t P IH P' IH']; intros F; auto.
  - inversion F; subst. constructor; [eapply Permutation_Forall; eassumption|auto].
  - inversion F as [|? ? X F']; subst. inversion F' as [|? ? Y F2]; subst. inversion X; subst.
    constructor; [constructor; auto|constructor; auto].
Qed.
Lemma pairs_forall2 {A} (R S T : A -> A -> Prop) l l' : (forall x x' y y', T x x' -> T y y' -> R x y -> S x' y') ->
  Forall2 T l l' -> ForallOrdPairs R l -> ForallOrdPairs S l'.
Proof.
  intros H. induction 1 as [|x x' l l' X F IH]; intros P; [constructor|]. inversion P as [|? ? Q P']; subst. constructor; [|auto].
  clear - H X F Q. induction F as [|y y' l l' Y F IH]; inversion Q; subst; constructor; eauto.
Qed.
Lemma pairs_shuffled {A} (R S T : A -> A -> Prop) l l' : (forall x y, R x y -> R y x) -> (forall x x' y y', T x x' -> T y y' -> R x y -> S x' y') ->
  shuffled T l l' -> ForallOrdPairs R l -> ForallOrdPairs S l'.
Proof. intros H K (s & P & F) X. eapply pairs_forall2; [exact K|exact F|]. eapply pairs_perm; eassumption. Qed.
Lemma pairs_same {A} (R : A -> A -> Prop) l x y : (forall a b, R a b -> R b a) -> ForallOrdPairs R l -> In x l -> In y l -> x = y \/ R x y.
Proof. intros H F X Y. destruct (ForallOrdPairs_In F x y X Y) as [E|[E|E]]; auto. Qed.
Lemma unlike_sym {A} (name : A -> string) x y : unlike name x y -> unlike name y x.
Proof. intros H n X Y. exact (H n Y X). Qed.
Lemma rc_unlike_sym x y : rc_unlike x y -> rc_unlike y x.
Proof. destruct x, y; cbn; auto using unlike_sym. Qed.
Lemma values_unlike_sym f g : values_unlike f g -> values_unlike g f.
Proof. intros H n e e' I J E E'. exact (H n e' e J I E' E). Qed.

Section Apart.
  Variable d : device.
  Hypothesis A : apart d.
  Lemma peripherals_same path x y : peripheral_placed d path x -> peripheral_placed d path y -> x = y.
  Proof using A.
    intros (n & -> & I & C) (n' & E & I' & C'). injection E as <-.
    destruct (pairs_same _ _ _ _ (unlike_sym p_name) (ap_peripherals d A) I I') as [E|E]; [exact E|]. destruct (E n C C').
  Qed.
  Lemma snoc_inj {B} (a b : list B) x y : a ++ [x] = b ++ [y] -> a = b /\ x = y.
  Proof. apply app_inj_tail. Qed.
  Lemma cluster_one path kids (x y : cluster) n : children_placed d path kids -> In (RCCluster x) kids -> In (RCCluster y) kids ->
    is_called c_name x n -> is_called c_name y n -> x = y.
  Proof using A.
    intros K I J C C'. destruct (pairs_same _ _ _ _ rc_unlike_sym (ap_children d A _ _ K) I J) as [E|E]; [now injection E|]. destruct (E n C C').
  Qed.
  Lemma register_one path kids (x y : register) n : children_placed d path kids -> In (RCRegister x) kids -> In (RCRegister y) kids ->
    is_called r_name x n -> is_called r_name y n -> x = y.
  Proof using A.
    intros K I J C C'. destruct (pairs_same _ _ _ _ rc_unlike_sym (ap_children d A _ _ K) I J) as [E|E]; [now injection E|]. destruct (E n C C').
  Qed.
  Lemma children_nonempty path kids : children_placed d path kids -> path <> [].
  Proof. destruct 1 as [path p (n & -> & _)|path n kids c _ _ _]; [discriminate|]. now destruct path. Qed.
  Lemma children_same path kids : children_placed d path kids -> forall kids', children_placed d path kids' -> kids = kids'.
  Proof using A.
    induction 1 as [path p H|path n kids c H IH I C]; intros kids' H'.
    - inversion H' as [? p' P|path' n' k c' K I' C']; subst.
      + now rewrite (peripherals_same _ _ _ H P).
      + destruct H as (n & E & _). apply (snoc_inj [] path' n n') in E as [E _] || (symmetry in E; apply (snoc_inj [] path' n n') in E as [E _]).
        destruct (children_nonempty _ _ K). now symmetry.
    - inversion H' as [? p' P E|path' n' k c' K I' C' E]; subst.
      + destruct P as (n' & E & _). apply (snoc_inj path [] n n') in E as [E _]. destruct (children_nonempty _ _ H E).
      + apply snoc_inj in E as [-> ->]. rewrite <- (IH _ K) in I'. now rewrite (cluster_one _ _ _ _ _ H I I' C C').
  Qed.
  Lemma clusters_same path x y : cluster_placed d path x -> cluster_placed d path y -> x = y.
  Proof using A.
    intros (b & n & k & -> & K & I & C) (b' & n' & k' & E & K' & I' & C'). apply snoc_inj in E as [<- <-].
    rewrite <- (children_same _ _ K _ K') in I'. exact (cluster_one _ _ _ _ _ K I I' C C').
  Qed.
  Lemma registers_same path x y : register_placed d path x -> register_placed d path y -> x = y.
  Proof using A.
    intros (b & n & k & -> & K & I & C) (b' & n' & k' & E & K' & I' & C'). apply snoc_inj in E as [<- <-].
    rewrite <- (children_same _ _ K _ K') in I'. exact (register_one _ _ _ _ _ K I I' C C').
  Qed.
  Lemma fields_same path x y : field_placed d path x -> field_placed d path y -> x = y.
  Proof using A.
    intros (b & n & r & -> & K & I & C) (b' & n' & r' & E & K' & I' & C'). apply snoc_inj in E as [<- <-].
    rewrite <- (registers_same _ _ _ K K') in I'.
    destruct (pairs_same _ _ _ _ (unlike_sym f_name) (ap_fields d A _ _ K) I I') as [E|E]; [exact E|]. destruct (E n C C').
  Qed.
  Lemma sets_same path x y : values_placed d path x -> values_placed d path y -> x = y.
  Proof using A.
    intros (b & n & r & -> & K & I & C) (b' & n' & r' & E & K' & I' & C'). apply snoc_inj in E as [<- <-].
    rewrite <- (fields_same _ _ _ K K') in I'.
    destruct (pairs_same _ _ _ _ (fun a b (H : forall n, evs_name a = Some n -> evs_name b <> Some n) n X Y => H n Y X) (ap_sets d A _ _ K) I I') as [E|E]; [exact E|]. destruct (E n C C').
  Qed.
  Lemma placed_field reg r f : register_placed d reg r -> In f (or_empty (r_fields (info r))) -> field_placed d (reg ++ [f_name (info f)]) f.
  Proof. intros R I. exists reg, (f_name (info f)), r. split; [reflexivity|]. split; [exact R|]. split; [exact I|]. now left. Qed.
  Lemma apart_unambiguous : unambiguous d.
  Proof using A.
    constructor; [exact peripherals_same|exact clusters_same|exact registers_same|exact fields_same|exact sets_same|].
    intros reg r f g n x y R F G X Y.
    assert (Q : forall h z, In h (or_empty (r_fields (info r))) -> values_placed d (reg ++ [f_name (info h); n]) z ->
      In z (f_enumerated_values (info h)) /\ evs_name z = Some n).
    { intros h z H (b & n' & h' & E & P & I & N). change [f_name (info h); n] with ([f_name (info h)] ++ [n]) in E. rewrite app_assoc in E.
      apply snoc_inj in E as [<- <-]. rewrite (fields_same _ _ _ (placed_field _ _ _ R H) P). now split. }
    destruct (Q _ _ F X) as [X1 X2], (Q _ _ G Y) as [Y1 Y2].
    destruct (pairs_same _ _ _ _ values_unlike_sym (ap_values d A _ _ R) F G) as [E|E]; [now rewrite E|]. destruct (E _ _ _ X1 Y1 X2 Y2).
  Qed.
End Apart.
Lemma apart_alike d d' : device_alike d d' -> apart d -> apart d'.
Proof.
  intros D A. pose proof (device_alike_sym _ _ D) as D'. constructor.
  - eapply pairs_shuffled; [apply unlike_sym| |exact (proj2 D)|exact (ap_peripherals d A)].
    intros x x' y y' X Y U n N N'. apply (U n); [eapply called_peripheral; [apply peripheral_alike_sym; exact X|exact N]|eapply called_peripheral; [apply peripheral_alike_sym; exact Y|exact N']].
  - intros path kids K. destruct (children_there _ _ D' _ _ K) as (kids' & K' & S).
    apply (shuffled_turn _ rc_alike) in S; [|intros x y _; apply rc_alike_sym].
    eapply pairs_shuffled; [apply rc_unlike_sym| |exact S|exact (ap_children d A _ _ K')].
    intros x x' y y' X Y U. destruct X as [r r' X|c s l P F], Y as [q q' Y|e t k Q G]; cbn in *; auto; intros n N N'.
    + apply (U n); [eapply called_register; [apply register_alike_sym; exact X|exact N]|eapply called_register; [apply register_alike_sym; exact Y|exact N']].
    + apply (U n).
      * eapply called_cluster; [|exact N]. apply rc_alike_sym. econstructor; eassumption.
      * eapply called_cluster; [|exact N']. apply rc_alike_sym. econstructor; eassumption.
  - intros path r R. destruct (register_there _ _ D' _ _ R) as (r' & R' & S). apply register_alike_sym, fields_of in S.
    eapply pairs_shuffled; [apply unlike_sym| |exact S|exact (ap_fields d A _ _ R')].
    intros x x' y y' X Y U n N N'. apply (U n); [eapply called_field; [apply field_alike_sym; exact X|exact N]|eapply called_field; [apply field_alike_sym; exact Y|exact N']].
  - intros path r R. destruct (register_there _ _ D' _ _ R) as (r' & R' & S). apply register_alike_sym, fields_of in S.
    eapply pairs_shuffled; [apply values_unlike_sym| |exact S|exact (ap_values d A _ _ R')].
    intros x x' y y' X Y U. unfold values_unlike in *. now rewrite (values_same _ _ X), (values_same _ _ Y).
  - intros path f F. destruct (field_there _ _ D' _ _ F) as (f' & F' & S). rewrite <- (values_same _ _ S). exact (ap_sets d A _ _ F').
Qed.

(** ** What a written file stands for is alike. *)
Lemma rc_like_alike cfg x : forall y, rc_like cfg x y -> rc_alike x y.
Proof.
  induction x as [r|c IH] using rc_tree_ind; intros y H; inversion H as [? fs F|? l F]; subst.
  - constructor. exists fs. split; [|now destruct r]. inversion F as [E|v s [P _] E]; subst; [reflexivity|]. cbn. exists s. split; [exact P|].
    apply forall2_mapped. intros f _. destruct f; eexists; reflexivity.
  - apply (cluster_alike_make c l). apply forall2_shuffled. rewrite Forall_forall in IH. 
    assert (G : forall ks, (forall x, In x ks -> In x (c_children (info c))) -> forall l, Forall2 (rc_like cfg) ks l -> Forall2 rc_alike ks l).
    { intros ks. induction ks as [|k ks IH']; intros I l' X; inversion X; subst; constructor; [apply IH; [apply I; now left|assumption]|].
      apply IH'; [intros; apply I; now right|assumption]. }
    apply G; auto.
Qed.
Lemma device_like_alike cfg d d' : device_like cfg d d' -> device_alike d d'.
Proof.
  intros (s & ps & [P _] & F & ->). split; [repeat split|]. cbn. exists s. split; [exact P|]. eapply forall2_impl; [|exact F].
  intros p p' L. inversion L as [? rs G]; subst. exists rs. split; [|now destruct p].
  inversion G as [|v t l [Q _] K]; subst; [reflexivity|]. cbn. exists t. split; [exact Q|]. eapply forall2_impl; [|exact K]. apply rc_like_alike.
Qed.

(** ** A way to see that a device is apart *)
Fixpoint pairsb {A} (r : A -> A -> bool) (l : list A) : bool :=
  match l with [] => true | x :: l' => forallb (r x) l' && pairsb r l' end.
Lemma pairsb_ok {A} (r : A -> A -> bool) (R : A -> A -> Prop) l : (forall x y, r x y = true -> R x y) -> pairsb r l = true -> ForallOrdPairs R l.
Proof.
  intros H. induction l as [|x l IH]; cbn; intros E; constructor; apply andb_true_iff in E as [E1 E2]; [|auto].
  rewrite forallb_forall in E1. apply Forall_forall. auto.
Qed.
Definition unlikeb {A} (name : A -> string) (x y : maybe_array A) : bool :=
  match entry_names name x, entry_names name y with
  | Ok a, Ok b => forallb (fun n => negb (existsb (seqb n) b)) a
  | _, _ => false
  end.
Lemma unlikeb_ok {A} (name : A -> string) x y : unlikeb name x y = true -> unlike name x y.
Proof.
  unfold unlikeb. destruct (entry_names name x) as [a| |] eqn:X; try discriminate. destruct (entry_names name y) as [b| |] eqn:Y; try discriminate.
  intros E n N N'. rewrite forallb_forall in E. specialize (E n (entry_names_complete _ _ _ _ X N)).
  pose proof (entry_names_complete _ _ _ _ Y N') as I. rewrite negb_true_iff in E.
  assert (T : existsb (seqb n) b = true) by (apply existsb_exists; exists n; split; [exact I|now apply seqb_eq]). congruence.
Qed.
Definition rc_unlikeb (x y : register_cluster) : bool :=
  match x, y with
  | RCRegister a, RCRegister b => unlikeb r_name a b
  | RCCluster a, RCCluster b => unlikeb c_name a b
  | _, _ => true
  end.
Definition set_unlikeb (e e' : enumerated_values) : bool :=
  match evs_name e, evs_name e' with Some n, Some n' => negb (seqb n n') | _, _ => true end.
Definition values_unlikeb (f g : field) : bool :=
  forallb (fun e => forallb (set_unlikeb e) (f_enumerated_values (info g))) (f_enumerated_values (info f)).
Lemma set_unlikeb_ok e e' : set_unlikeb e e' = true -> forall n, evs_name e = Some n -> evs_name e' <> Some n.
Proof.
  unfold set_unlikeb. intros E n X Y. rewrite X, Y in E. assert (T : seqb n n = true) by now apply seqb_eq. rewrite T in E. discriminate.
Qed.
Fixpoint kids_below (rc : register_cluster) : list (list register_cluster) :=
  match rc with RCRegister _ => [] | RCCluster c => c_children (info c) :: flat_map kids_below (c_children (info c)) end.
Definition all_kids (d : device) : list (list register_cluster) :=
  flat_map (fun p => or_empty (p_registers (info p)) :: flat_map kids_below (or_empty (p_registers (info p)))) (d_peripherals d).
Definition registers_in (kids : list register_cluster) : list register :=
  flat_map (fun rc => match rc with RCRegister r => [r] | _ => [] end) kids.
Definition apartb (d : device) : bool :=
  pairsb (unlikeb p_name) (d_peripherals d) &&
  forallb (fun kids => pairsb rc_unlikeb kids &&
    forallb (fun r => let fs := or_empty (r_fields (info r)) in
      pairsb (unlikeb f_name) fs && pairsb values_unlikeb fs &&
      forallb (fun f => pairsb set_unlikeb (f_enumerated_values (info f))) fs) (registers_in kids)) (all_kids d).
Lemma all_kids_ok d path kids : children_placed d path kids ->
  In kids (all_kids d) /\ forall rc, In rc kids -> incl (kids_below rc) (all_kids d).
Proof.
  induction 1 as [path p (n & _ & I & _)|path n kids c H [_ IH] I _].
  - split; [apply in_flat_map; exists p; split; [exact I|now left]|].
    intros rc R k K. apply in_flat_map. exists p. split; [exact I|]. right. apply in_flat_map. now exists rc.
  - specialize (IH _ I). split; [apply IH; now left|]. intros rc R k K. apply IH. right. apply in_flat_map. now exists rc.
Qed.
Lemma apartb_ok d : apartb d = true -> apart d.
Proof.
  unfold apartb. intros E. apply andb_true_iff in E as [E1 E2]. rewrite forallb_forall in E2.
  assert (K : forall path kids, children_placed d path kids -> pairsb rc_unlikeb kids = true /\
    forall r, In r (registers_in kids) -> pairsb (unlikeb f_name) (or_empty (r_fields (info r))) = true /\
      pairsb values_unlikeb (or_empty (r_fields (info r))) = true /\
      forall f, In f (or_empty (r_fields (info r))) -> pairsb set_unlikeb (f_enumerated_values (info f)) = true).
  { intros path kids C. destruct (all_kids_ok _ _ _ C) as [I _]. specialize (E2 _ I). cbv zeta in E2. apply andb_true_iff in E2 as [A B].
    split; [exact A|]. rewrite forallb_forall in B. intros r R. specialize (B r R). apply andb_true_iff in B as [B B3]. apply andb_true_iff in B as [B1 B2].
    split; [exact B1|]. split; [exact B2|]. now rewrite forallb_forall in B3. }
  assert (R : forall path r, register_placed d path r -> pairsb (unlikeb f_name) (or_empty (r_fields (info r))) = true /\
      pairsb values_unlikeb (or_empty (r_fields (info r))) = true /\
      forall f, In f (or_empty (r_fields (info r))) -> pairsb set_unlikeb (f_enumerated_values (info f)) = true).
  { intros path r (b & n & kids & _ & C & I & _). apply (K _ _ C). apply in_flat_map. exists (RCRegister r). split; [exact I|now left]. }
  constructor.
  - eapply pairsb_ok; [|exact E1]. apply unlikeb_ok.
  - intros path kids C. eapply pairsb_ok; [|exact (proj1 (K _ _ C))]. intros [a|a] [b|b]; cbn; auto; apply unlikeb_ok.
  - intros path r P. eapply pairsb_ok; [|exact (proj1 (R _ _ P))]. apply unlikeb_ok.
  - intros path r P. eapply pairsb_ok; [|exact (proj1 (proj2 (R _ _ P)))]. intros f g E n e e' I J. unfold values_unlikeb in E.
    rewrite forallb_forall in E. specialize (E e I). rewrite forallb_forall in E. now apply set_unlikeb_ok, E.
  - intros path f (b & n & r & _ & P & I & _). eapply pairsb_ok; [|exact (proj2 (proj2 (R _ _ P)) f I)]. exact set_unlikeb_ok.
Qed.
