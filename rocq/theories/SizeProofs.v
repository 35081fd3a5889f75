(** How much an expansion gives. *)
From Verif Require Import Base BaseFacts TreeFacts Types Expand SpecArray SpecExpand SpecFlat SpecCause SpecParse SpecSize CauseProofs FlatProofs PropExpand.

Lemma len_app {A} (l k : list A) : len_N (l ++ k) = len_N l + len_N k.
Proof. unfold len_N. rewrite app_length. lia. Qed.
Lemma len_map {A B} (f : A -> B) l : len_N (map f l) = len_N l.
Proof. unfold len_N. now rewrite map_length. Qed.
Lemma len_flat {A B} (f : A -> list B) n l : (forall x, In x l -> len_N (f x) = n) -> len_N (flat_map f l) = len_N l * n.
Proof.
  induction l as [|x l IH]; intros H; [reflexivity|]. cbn [flat_map]. rewrite len_app, IH by (intros; apply H; now right).
  rewrite (H x) by now left. unfold len_N. cbn [List.length]. lia.
Qed.
Lemma total_app l k : total (l ++ k) = total l + total k.
Proof. induction l as [|x l IH]; [reflexivity|]. change (x + total (l ++ k) = x + total l + total k). rewrite IH. lia. Qed.
Lemma total_same {A} (f : A -> N) n l : (forall x, In x l -> f x = n) -> total (map f l) = len_N l * n.
Proof.
  induction l as [|x l IH]; intros H; [reflexivity|]. change (f x + total (map f l) = len_N (x :: l) * n). rewrite IH by (intros; apply H; now right).
  rewrite (H x) by now left. unfold len_N. cbn [List.length]. lia.
Qed.
Lemma total_flat {A B} (f : B -> N) (g : A -> list B) n l : (forall x, In x l -> total (map f (g x)) = n) -> total (map f (flat_map g l)) = len_N l * n.
Proof.
  induction l as [|x l IH]; intros H; [reflexivity|]. cbn [flat_map]. rewrite map_app, total_app, IH by (intros; apply H; now right).
  rewrite (H x) by now left. unfold len_N. cbn [List.length]. lia.
Qed.

Lemma spots_copies {A} (name : A -> string) place x l : spots name place x l -> len_N l = copies x.
Proof. destruct x as [i|i d]; cbn; [intros ->; reflexivity|now intros [H _]]. Qed.
Lemma layout_registers kids l : layout kids l -> len_N l = total (map count_registers kids).
Proof.
  induction 1 as [|r rest ss l S L IH|c rest ss sub l S L1 IH1 L2 IH2]; [reflexivity|..];
    rewrite len_app; cbn [map total fold_right count_registers].
  - rewrite len_map, (spots_copies _ _ _ _ S). f_equal. exact IH.
  - rewrite (len_flat _ (len_N sub)) by (intros; apply len_map). rewrite (spots_copies _ _ _ _ S), IH1. f_equal. exact IH2.
Qed.
Definition spot_fields (s : spot) : N := total (map copies (or_empty (r_fields (info (s_register s))))).
Lemma layout_fields kids l : layout kids l -> total (map spot_fields l) = total (map count_fields kids).
Proof.
  induction 1 as [|r rest ss l S L IH|c rest ss sub l S L1 IH1 L2 IH2]; [reflexivity|..];
    rewrite map_app, total_app; cbn [map total fold_right count_fields]; f_equal; try assumption.
  - rewrite map_map. rewrite (total_same _ (total (map copies (or_empty (r_fields (info r)))))) by reflexivity.
    now rewrite (spots_copies _ _ _ _ S).
  - rewrite (total_flat _ _ (total (map spot_fields sub))); [now rewrite (spots_copies _ _ _ _ S), IH1|].
    intros x _. now rewrite map_map.
Qed.
Lemma fields_copies fs l : field_spots fs l -> len_N l = total (map copies fs).
Proof.
  intros (ls & F & ->). induction F as [|f l' fs ls S F IH]; [reflexivity|]. cbn [List.concat map total fold_right].
  rewrite len_app, (spots_copies _ _ _ _ S). f_equal. exact IH.
Qed.
Lemma Forall2_len {A B} (R : A -> B -> Prop) l k : Forall2 R l k -> len_N l = len_N k.
Proof. intros F. unfold len_N. f_equal. induction F; cbn; congruence. Qed.
Lemma at_spot_fields m s y : at_spot m s y -> len_N (or_empty (r_fields y)) = spot_fields s.
Proof.
  intros (_ & _ & _ & _ & _ & _ & _ & _ & _ & H). unfold spot_fields. destruct (r_fields (info (s_register s))) as [fs|]; [|now rewrite H].
  destruct H as (l & out & L & -> & F). cbn [or_empty]. rewrite len_map, <- (Forall2_len _ _ _ F). exact (fields_copies _ _ L).
Qed.

Lemma flattened_sizes m p out : flattened m p out -> len_N out = copies p /\ Forall (fun y => sizes p (Single y)) out.
Proof.
  intros (ss & S & F). split; [rewrite <- (Forall2_len _ _ _ F); exact (spots_copies _ _ _ _ S)|].
  apply Forall_forall. intros y I. destruct (Forall2_in_r _ _ _ F _ I) as (s & _ & _ & _ & H). unfold sizes, listed. cbn [info].
  destruct (p_registers (info p)) as [kids|]; cbn [or_empty]; [|now rewrite H].
  destruct H as (l & regs & L & R & ->). cbn [or_empty]. rewrite len_map, <- (Forall2_len _ _ _ R). split; [exact (layout_registers _ _ L)|].
  rewrite map_map. cbn [listed_fields info]. rewrite <- (layout_fields _ _ L). clear L.
  induction R as [|s' z l regs A R IH]; [reflexivity|]. cbn [map total fold_right]. rewrite (at_spot_fields _ _ _ A). f_equal. exact IH.
Qed.
Lemma expand_sizes m fuel d e : underived d -> expand m fuel d = Ok e ->
  exists groups, d_peripherals e = List.concat groups /\
    Forall2 (fun p g => len_N g = copies p /\ Forall (sizes p) g) (d_peripherals d) groups.
Proof.
  intros U E. destruct (C34_layout m fuel d e U E) as (groups & H & F). exists (map (map Single) groups). split; [now rewrite H, concat_map|].
  clear -F. induction F as [|p g ps gs A F IH]; constructor; [|exact IH]. destruct (flattened_sizes _ _ _ A) as [L S].
  rewrite len_map. split; [exact L|]. apply Forall_map. exact S.
Qed.
Lemma expand_totals m fuel d e : underived d -> expand m fuel d = Ok e ->
  len_N (d_peripherals e) = total (map copies (d_peripherals d)) /\
  total (map (fun q => len_N (listed q)) (d_peripherals e)) =
    total (map (fun p => copies p * total (map count_registers (listed p))) (d_peripherals d)) /\
  total (map (fun q => total (map (fun rc => len_N (listed_fields rc)) (listed q))) (d_peripherals e)) =
    total (map (fun p => copies p * total (map count_fields (listed p))) (d_peripherals d)).
Proof.
  intros U E. destruct (expand_sizes m fuel d e U E) as (groups & -> & F). clear U E.
  induction F as [|p g ps gs [L S] F IH]; [now repeat split|]. destruct IH as (I1 & I2 & I3). rewrite Forall_forall in S.
  cbn [List.concat map total fold_right]. rewrite !map_app, !total_app, len_app, L. split; [f_equal; exact I1|].
  rewrite (total_same (fun q => len_N (listed q)) (total (map count_registers (listed p))) g) by (intros q I; apply (S q I)).
  rewrite (total_same (fun q => total _) (total (map count_fields (listed p))) g) by (intros q I; apply (S q I)).
  rewrite L. split; f_equal; assumption.
Qed.

(** ** Descriptions that double with every line *)
Definition twice_over : dim_element := DimElement 2 0 None None None.
Fixpoint tower (n : nat) : register_cluster :=
  match n with
  | O => RCRegister (Single (a_register "R" 0 None None))
  | S k => RCCluster (Array (a_cluster "C%s" 0 [tower k] None) twice_over)
  end.
Definition towering (n : nat) : device := a_device [Single (a_peripheral "P" 0 (Some [tower n]) None)].
Lemma tower_underived n : underived_child (tower n).
Proof. induction n as [|n IH]; cbn; constructor; try reflexivity; [constructor|]. cbn. now repeat constructor. Qed.
Lemma tower_written n : written (tower n) = N.of_nat n + 1.
Proof. induction n as [|n IH]; [reflexivity|]. cbn [tower written info a_cluster c_children map total fold_right]. rewrite IH. lia. Qed.
Lemma tower_count n : count_registers (tower n) = 2 ^ N.of_nat n.
Proof.
  induction n as [|n IH]; [reflexivity|]. cbn [tower count_registers info a_cluster c_children map total fold_right copies twice_over de_dim]. rewrite IH.
  rewrite Nat2N.inj_succ, N.pow_succ_r'. lia.
Qed.
Lemma tower_arrays n s e : array_in_rc (tower n) s e -> enough e.
Proof.
  revert s e. induction n as [|n IH]; intros s e H; cbn in H; inversion H; subst; try (intros l X; discriminate X).
  - match goal with A : array_in_register _ _ _ |- _ => inversion A; subst end. discriminate.
  - cbn in *. match goal with A : _ \/ False |- _ => destruct A as [<-|[]] end. eapply IH; eassumption.
Qed.
Lemma child_underived d rc : underived d -> child_of d rc -> underived_child rc.
Proof.
  intros U C. unfold underived in U. rewrite Forall_forall in U. induction C as [p rc P I|c rc C IH I].
  - destruct (U p P) as [_ F]. rewrite Forall_forall in F. now apply F.
  - inversion IH as [|? D F]; subst. rewrite Forall_forall in F. now apply F.
Qed.
Lemma underived_field_references d s : underived d -> ~ field_reference d s.
Proof.
  intros U (f & (r & C & I) & E). apply (child_underived _ _ U) in C. inversion C as [? D F|]; subst. rewrite Forall_forall in F.
  destruct (F f I). congruence.
Qed.
Lemma underived_other_references d s : underived d -> ~ other_reference d s.
Proof.
  intros U [(p & I & E)|[(c & C & E)|[(r & C & E)|(e & (f & (r & C & I) & J) & E)]]].
  - unfold underived in U. rewrite Forall_forall in U. destruct (U p I). congruence.
  - apply (child_underived _ _ U) in C. inversion C; subst. congruence.
  - apply (child_underived _ _ U) in C. inversion C; subst. congruence.
  - apply (child_underived _ _ U) in C. inversion C as [? D F|]; subst. rewrite Forall_forall in F. destruct (F f I) as [_ G].
    rewrite Forall_forall in G. rewrite (G e J) in E. discriminate.
Qed.
Lemma towering_expands n : exists k e, expand Release k (towering n) = Ok e /\ underived (towering n) /\
  written_device (towering n) = N.of_nat n + 2 /\
  total (map (fun q => len_N (listed q)) (d_peripherals e)) = 2 ^ N.of_nat n.
Proof.
  assert (U : underived (towering n)).
  { constructor; [|constructor]. split; [reflexivity|]. constructor; [apply tower_underived|constructor]. }
  destruct (expand_total Release (towering n)) as (k & r & [[e ->]|[X _]] & H); [| | | |discriminate].
  - intros s. now apply underived_field_references.
  - intros s. now apply underived_other_references.
  - intros s e A. inversion A as [p d I|p s' d I J]; subst; cbn in I; destruct I as [I|[]]; [discriminate|].
    subst p. inversion J as [? ? ? ? R I K]; subst. cbn in R. injection R as <-. destruct I as [<-|[]]. exact (tower_arrays _ _ _ K).
  - exists k, e. specialize (H k (le_n k)). split; [exact H|]. split; [exact U|]. split.
    + unfold written_device. cbn [towering a_device d_peripherals map listed info a_peripheral p_registers or_empty total fold_right].
      rewrite tower_written. lia.
    + destruct (expand_totals _ _ _ _ U H) as (_ & T & _). rewrite T.
      cbn [towering a_device d_peripherals map listed info a_peripheral p_registers or_empty total fold_right copies]. rewrite tower_count. lia.
Qed.
