(** The completed description: there is one, and it expands only to what the description expands to. *)
From Verif Require Import Base BaseFacts TreeFacts Types SpecArray SpecDerive SpecPath SpecExpand SpecExact SpecFlat Expand ChainProofs MeaningProofs ExactProofs ExactReach FlatProofs SpecWritten WrittenProofs SpecComplete CompleteProofs.

Section Unique.
  Variable d : device.
  Hypothesis U : unambiguous d.
  Lemma field_completed_fun ctx f a b : field_completed d ctx f a -> field_completed d ctx f b -> a = b.
  Proof using U.
    intros (c & f1 & x & evs & F & V & O & K & ->) (c' & f1' & x' & evs' & F' & V' & O' & K' & ->).
    rewrite <- (follows_fun _ _ _ (step_fields d U) _ _ _ F _ F') in *.
    rewrite <- (field_from_fun _ _ _ _ V V') in *. rewrite <- (origin_fun _ _ _ _ _ _ O O') in *.
    now rewrite <- (forall2_fun' _ _ (values_expanded_fun d U _) _ _ K K').
  Qed.
  Lemma register_completed_fun ctx r a b : register_completed d ctx r a -> register_completed d ctx r b -> a = b.
  Proof using U.
    intros (c & f1 & x & fs & F & V & O & K & ->) (c' & f1' & x' & fs' & F' & V' & O' & K' & ->).
    rewrite <- (follows_fun _ _ _ (step_registers d U) _ _ _ F _ F') in *.
    rewrite <- (register_from_fun _ _ _ _ V V') in *. rewrite <- (origin_fun _ _ _ _ _ _ O O') in *.
    assert (E : fs = fs'); [|now rewrite E].
    destruct (r_fields (info f1)); [|congruence]. destruct K as (g & K & ->), K' as (g' & K' & ->).
    now rewrite (forall2_fun' _ _ (field_completed_fun _) _ _ K K').
  Qed.
  Section ChildInd.
    Variable P : list string -> register_cluster -> register_cluster -> Prop.
    Hypothesis Pr : forall ctx r r', register_completed d ctx r r' -> P ctx (RCRegister r) (RCRegister r').
    Hypothesis Pc : forall ctx (c : cluster) chain c1 ctx' kids,
        follows_clusters d (c_name (info c)) ctx (c_derived_from (info c)) chain ->
        cluster_from c (paths chain) c1 ->
        origin (fun x : cluster => c_children (info x) = []) c chain (ctx ++ [c_name (info c)]) ctx' ->
        Forall2 (child_completed d ctx') (c_children (info c1)) kids ->
        Forall2 (P ctx') (c_children (info c1)) kids ->
        P ctx (RCCluster c) (RCCluster (mapped (fun i => cluster_with i kids) c1)).
    Fixpoint completed_ind ctx rc out (H : child_completed d ctx rc out) : P ctx rc out :=
      match H with
      | cc_register _ ctx r out K => Pr ctx r out K
      | cc_cluster _ ctx c chain c1 ctx' kids H1 H2 H3 H4 =>
          Pc ctx c chain c1 ctx' kids H1 H2 H3 H4
            ((fix go l l' (F : Forall2 (child_completed d ctx') l l') : Forall2 (P ctx') l l' :=
                match F with
                | Forall2_nil _ => Forall2_nil _
                | Forall2_cons _ _ h t => Forall2_cons _ _ (completed_ind _ _ _ h) (go _ _ t)
                end) _ _ H4)
      end.
  End ChildInd.
  Lemma child_completed_fun ctx rc a : child_completed d ctx rc a -> forall b, child_completed d ctx rc b -> a = b.
  Proof using U.
    intros H. refine (completed_ind (fun ctx rc a => forall b, child_completed d ctx rc b -> a = b) _ _ ctx rc a H); clear ctx rc a H.
    - intros ctx r out H b H'. inversion H'; subst. f_equal. eapply register_completed_fun; eauto.
    - intros ctx c chain c1 ctx' kids F V O _ IH b H'. inversion H' as [|? ? chain' c1' ctx'' kids' F' V' O' G']; subst.
      rewrite <- (follows_fun _ _ _ (step_clusters d U) _ _ _ F _ F') in *.
      rewrite <- (cluster_from_fun _ _ _ _ V V') in *. rewrite <- (origin_fun _ _ _ _ _ _ O O') in *.
      now rewrite <- (forall2_both _ _ _ IH _ G').
  Qed.
  Lemma peripheral_completed_fun p a b : peripheral_completed d p a -> peripheral_completed d p b -> a = b.
  Proof using U.
    intros (c & f1 & x & fs & F & V & O & K & ->) (c' & f1' & x' & fs' & F' & V' & O' & K' & ->).
    rewrite <- (follows_fun _ _ _ (step_peripherals d U) _ _ _ F _ F') in *.
    rewrite <- (peripheral_from_fun _ _ _ _ V V') in *. rewrite <- (origin_fun _ _ _ _ _ _ O O') in *.
    assert (E : fs = fs'); [|now rewrite E].
    destruct (p_registers (info f1)); [|congruence]. destruct K as (g & K & ->), K' as (g' & K' & ->).
    now rewrite (forall2_fun' _ _ (fun rc a b H => child_completed_fun x rc a H b) _ _ K K').
  Qed.
  Lemma device_completed_fun d1 d2 : device_completed d d1 -> device_completed d d2 -> d1 = d2.
  Proof using U.
    intros [S K] [S' K']. pose proof (forall2_fun' _ _ peripheral_completed_fun _ _ K K') as E.
    unfold same_but_peripherals in *. destruct d1, d2; cbn in *.
    repeat match goal with H : _ /\ _ |- _ => destruct H end. subst. reflexivity.
  Qed.
End Unique.

(** Nothing is derived in it. *)
Section Underived.
  Variable d : device.
  Lemma values_all ctx l evs : Forall2 (values_expanded d ctx) l evs -> Forall (fun e => evs_derived_from e = None) evs.
  Proof using.
    intros V. apply Forall_forall. intros e I. destruct (Forall2_in_r _ _ _ V _ I) as (e0 & _ & E). exact (values_done _ _ _ _ E).
  Qed.
  Lemma field_completed_underived ctx f f' : field_completed d ctx f f' -> underived_field f'.
  Proof using.
    intros (chain & f1 & ctx' & evs & _ & G & _ & V & ->). destruct G as (_ & _ & _ & D & _). apply values_all in V.
    destruct f1; split; assumption.
  Qed.
  Lemma all_r {A B} (R : A -> B -> Prop) (P : B -> Prop) l l' : (forall a b, R a b -> P b) -> Forall2 R l l' -> Forall P l'.
  Proof using. induction 2; constructor; eauto. Qed.
  Lemma register_completed_underived ctx r r' : register_completed d ctx r r' -> underived_child (RCRegister r').
  Proof using.
    intros (chain & r1 & ctx' & fs & _ & G & _ & V & ->). destruct G as (_ & _ & _ & _ & _ & _ & _ & D & _).
    assert (Q : Forall underived_field (or_empty fs)).
    { destruct (r_fields (info r1)); [|subst; constructor]. destruct V as (l' & V & ->).
      eapply all_r; [|exact V]. apply field_completed_underived. }
    destruct r1; constructor; assumption.
  Qed.
  Lemma child_completed_underived ctx rc rc' : child_completed d ctx rc rc' -> underived_child rc'.
  Proof using.
    intros H. refine (completed_ind d (fun _ _ rc' => underived_child rc') _ _ ctx rc rc' H); clear ctx rc rc' H.
    - apply register_completed_underived.
    - intros ctx c chain c1 ctx' kids _ G _ _ IH. destruct G as (_ & _ & _ & _ & _ & D & _).
      assert (Q : Forall underived_child kids) by (eapply all_r; [|exact IH]; auto). destruct c1; constructor; assumption.
  Qed.
  Lemma peripheral_completed_underived p p' : peripheral_completed d p p' -> underived_peripheral p'.
  Proof using.
    intros (chain & r1 & ctx' & fs & _ & G & _ & V & ->). destruct G as (_ & _ & _ & _ & _ & D & _).
    assert (Q : Forall underived_child (or_empty fs)).
    { destruct (p_registers (info r1)); [|subst; constructor]. destruct V as (l' & V & ->).
      eapply all_r; [|exact V]. intros a b. apply child_completed_underived. }
    destruct r1; split; assumption.
  Qed.
  Lemma device_completed_underived d' : device_completed d d' -> underived d'.
  Proof using. intros [_ K]. eapply all_r; [|exact K]. apply peripheral_completed_underived. Qed.
End Underived.

(** What it means is what the description means. *)
Section Back.
  Variables (m : mode) (d d' : device).
  Lemma values_plain ctx e e' : evs_derived_from e = None -> values_expanded d' ctx e e' -> e' = e.
  Proof using.
    intros D (chain & F & V). rewrite D in F. apply follows_none in F as ->. exact (values_from_fun _ _ _ _ V (values_from_self _ D)).
  Qed.
  Lemma values_all_plain ctx l l' : Forall (fun e => evs_derived_from e = None) l -> Forall2 (values_expanded d' ctx) l l' -> l' = l.
  Proof using.
    intros D V. induction V; [reflexivity|]. inversion D; subst. f_equal; [|auto]. eapply values_plain; eauto.
  Qed.
  Lemma field_back ctx ctx2 f f' out : field_completed d ctx f f' -> field_expanded m d' ctx2 f' out -> field_expanded m d ctx f out.
  Proof using.
    intros C E. pose proof (field_completed_underived _ _ _ _ C) as [D Ds].
    destruct E as (ch & g1 & x & evs' & F' & G' & _ & V' & I). rewrite D in F'. apply follows_none in F' as ->.
    rewrite <- (field_from_fun _ _ _ _ (field_from_self _ D) G') in *. apply values_all_plain in V'; [|exact Ds]. subst evs'.
    destruct C as (chain & f1 & ctx' & evs & F & G & O & V & ->). exists chain, f1, ctx', evs. conjs; [assumption..|].
    destruct f1; exact I.
  Qed.
  Lemma parts_back {A B C} (R : A -> B -> Prop) (Q : B -> C -> Prop) (S : A -> C -> Prop) l l' os :
    (forall a b o, R a b -> Q b o -> S a o) -> Forall2 R l l' -> Forall2 Q l' os -> Forall2 S l os.
  Proof using. intros H K. revert os. induction K; intros os L; inversion L; subst; constructor; eauto. Qed.
  Lemma register_back ctx ctx2 r r' out : register_completed d ctx r r' -> register_expanded m d' ctx2 r' out -> register_expanded m d ctx r out.
  Proof using.
    intros C E. pose proof (register_completed_underived _ _ _ _ C) as Ud. inversion Ud as [r0 D _ E0|]; subst r0.
    destruct E as (ch & g1 & x & fs' & F' & G' & _ & V' & I). rewrite D in F'. apply follows_none in F' as ->.
    rewrite <- (register_from_fun _ _ _ _ (register_from_self _ D) G') in *.
    destruct C as (chain & r1 & ctx' & fs & F & G & O & V & ->). exists chain, r1, ctx', fs'. conjs; [assumption..| |destruct r1; exact I].
    replace (r_fields (info (mapped (fun i => register_with i fs) r1))) with fs in V' by now destruct r1.
    destruct (r_fields (info r1)) as [l|]; [|subst fs; exact V']. destruct V as (l' & V & ->). destruct V' as (gs & V' & ->).
    exists gs. split; [|reflexivity]. eapply parts_back; [|exact V|exact V']. intros a b o. apply field_back.
  Qed.
  Lemma cluster_spots c1 kids cs : instances_of (cluster_instance_of m) (mapped (fun i => cluster_with i kids) c1) cs ->
    exists cs', instances_of (cluster_instance_of m) c1 cs' /\ Forall2 (fun k k' => c_name k = c_name k' /\ c_address_offset k = c_address_offset k') cs cs'.
  Proof using.
    destruct c1 as [i|i e]; cbn [mapped instances_of]; intros H.
    - subst cs. exists [i]. split; [reflexivity|]. repeat constructor.
    - exists cs. split; [exact H|]. clear H. induction cs; constructor; auto.
  Qed.
  Lemma child_back ctx rc rc' : child_completed d ctx rc rc' -> forall ctx2 out, child_expanded m d' ctx2 rc' out -> child_expanded m d ctx rc out.
  Proof using.
    intros H. refine (completed_ind d (fun ctx rc rc' => forall ctx2 out, child_expanded m d' ctx2 rc' out -> child_expanded m d ctx rc out) _ _ ctx rc rc' H);
      clear ctx rc rc' H.
    - intros ctx r r' C ctx2 out E. inversion E; subst. constructor. eapply register_back; eauto.
    - intros ctx c chain c1 ctx' kids F G O _ IH ctx2 out E.
      assert (D : c_derived_from (info (mapped (fun i => cluster_with i kids) c1)) = None).
      { destruct G as (_ & _ & _ & _ & _ & D & _). destruct c1; exact D. }
      inversion E as [|? ? ch c2 x groups cs outs F' G' O' K I J]; subst. unfold cluster_info, cluster in *. rewrite D in F'. apply follows_none in F' as ->.
      rewrite <- (cluster_from_fun _ _ _ _ (cluster_from_self _ D) G') in *.
      assert (K2 : Forall2 (child_expanded m d' x) kids groups) by (destruct c1; exact K).
      apply cluster_spots in I as (cs' & I & Same).
      eapply ce_cluster; [exact F|exact G|exact O| |exact I|].
      + eapply parts_back; [|exact IH|exact K2]. cbv beta. intros a b o P Q. exact (P _ _ Q).
      + clear -J Same. revert outs J. induction Same as [|k k' cs cs' [E1 E2] S IH]; intros outs J; inversion J; subst; constructor; [|auto].
        rewrite <- E1, <- E2. assumption.
  Qed.
  Lemma peripheral_back p p' out : peripheral_completed d p p' -> peripheral_expanded m d' p' out -> peripheral_expanded m d p out.
  Proof using.
    intros C E. pose proof (peripheral_completed_underived _ _ _ C) as [D _].
    destruct E as (ch & g1 & x & fs' & F' & G' & _ & V' & I). rewrite D in F'. apply follows_none in F' as ->.
    rewrite <- (peripheral_from_fun _ _ _ _ (peripheral_from_self _ D) G') in *.
    destruct C as (chain & r1 & ctx' & fs & F & G & O & V & ->). exists chain, r1, ctx', fs'. conjs; [assumption..| |destruct r1; exact I].
    replace (p_registers (info (mapped (fun i => peripheral_with i fs) r1))) with fs in V' by now destruct r1.
    destruct (p_registers (info r1)) as [l|]; [|subst fs; exact V']. destruct V as (l' & V & ->). destruct V' as (gs & V' & ->).
    exists gs. split; [|reflexivity]. eapply parts_back; [|exact V|exact V']. intros a b o K. apply child_back. exact K.
  Qed.
  Lemma device_back e : device_completed d d' -> device_expanded m d' e -> device_expanded m d e.
  Proof using.
    intros [S K] [S' (gs & K' & E)]. split.
    - unfold same_but_peripherals in *. destruct d, d', e; cbn in *. repeat match goal with H : _ /\ _ |- _ => destruct H end. subst. conjs; reflexivity.
    - exists gs. split; [|exact E]. eapply parts_back; [|exact K|exact K']. apply peripheral_back.
  Qed.
End Back.

Lemma complete_forth m fuel d d' e : unambiguous d -> device_completed d d' -> expand m fuel d = Ok e -> expand m fuel d' = Ok e.
Proof.
  intros U C E. destruct (expand_complete _ _ _ _ E) as (d2 & C2 & _ & E2). now rewrite (device_completed_fun d U _ _ C C2).
Qed.
Lemma complete_back m fuel d d' e : unambiguous d -> device_completed d d' -> expand m fuel d' = Ok e ->
  exists k, forall fuel', (k <= fuel')%nat -> expand m fuel' d = Ok e.
Proof.
  intros U C E. apply expand_reached; [exact U|]. eapply device_back; [exact C|]. exact (expand_meaning _ _ _ _ E).
Qed.

(** Where nothing is derived, there is nothing to complete. *)
Lemma forall2_same {A} (R : A -> A -> Prop) l : (forall x, In x l -> R x x) -> Forall2 R l l.
Proof. induction l; intros H; constructor; [apply H; now left|apply IHl; intros; apply H; now right]. Qed.
Section Same.
  Variable d : device.
  Lemma field_completed_same ctx f : underived_field f -> field_completed d ctx f f.
  Proof using.
    intros [D V]. exists [], f, (ctx ++ [f_name (info f)]), (f_enumerated_values (info f)). rewrite D. conjs; [constructor|now apply field_from_self|apply ChainProofs.origin_none| |].
    - rewrite Forall_forall in V. apply forall2_same. intros e E. exists []. rewrite (V e E). split; [constructor|]. apply values_from_self. auto.
    - destruct f as [[]|[] e]; reflexivity.
  Qed.
  Lemma register_completed_same ctx r : r_derived_from (info r) = None -> Forall underived_field (or_empty (r_fields (info r))) -> register_completed d ctx r r.
  Proof using.
    intros D V. exists [], r, (ctx ++ [r_name (info r)]), (r_fields (info r)). rewrite D. conjs; [constructor|now apply register_from_self|apply ChainProofs.origin_none| |].
    - destruct (r_fields (info r)) as [l|]; [|reflexivity]. exists l. split; [|reflexivity]. cbn [or_empty] in V. rewrite Forall_forall in V. apply forall2_same. intros x X. apply field_completed_same. auto.
    - destruct r as [[]|[] e]; reflexivity.
  Qed.
  Lemma child_completed_same rc : forall ctx, underived_child rc -> child_completed d ctx rc rc.
  Proof using.
    induction rc as [r|c IH] using rc_tree_ind; intros ctx U; inversion U as [r' D V E|c' D V E]; subst; [constructor; now apply register_completed_same|].
    replace (RCCluster c) with (RCCluster (mapped (fun i => cluster_with i (c_children (info c))) c)) at 2 by (destruct c as [[]|[] e]; reflexivity).
    apply cc_cluster with (chain := []) (ctx' := ctx ++ [c_name (info c)]); [|now apply cluster_from_self|apply ChainProofs.origin_none|].
    - unfold cluster_info, cluster in *. rewrite D. constructor.
    - apply forall2_same. intros x X. rewrite Forall_forall in IH, V. auto.
  Qed.
  Lemma peripheral_completed_same p : underived_peripheral p -> peripheral_completed d p p.
  Proof using.
    intros [D V]. exists [], p, [p_name (info p)], (p_registers (info p)). rewrite D. conjs; [constructor|now apply peripheral_from_self|apply ChainProofs.origin_none| |].
    - destruct (p_registers (info p)) as [l|]; [|reflexivity]. exists l. split; [|reflexivity]. cbn [or_empty] in V. rewrite Forall_forall in V. apply forall2_same. intros x X. apply child_completed_same. auto.
    - destruct p as [[]|[] e]; reflexivity.
  Qed.
End Same.
Lemma completed_same d : underived d -> device_completed d d.
Proof.
  intros U. split; [unfold same_but_peripherals; conjs; reflexivity|]. unfold underived in U. rewrite Forall_forall in U. apply forall2_same. intros x X. apply peripheral_completed_same. auto.
Qed.
