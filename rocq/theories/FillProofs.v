(** Proofs for C79: filling in properties keeps descriptions that can be written. *)
From Verif Require Import Base BaseFacts Types SpecArray SpecText SpecValidate SpecParse SpecRound SpecDerive SpecExpand SpecProps TreeFacts SpecAgain AgainProofs.
Import ListNotations.
Open Scope N_scope.

Lemma no_checks x : element_ok Disabled x.
Proof.
  assert (C : ~ checked Disabled) by (intros [H|H]; discriminate). assert (S : Disabled <> Strict) by discriminate.
  destruct x; cbn [element_ok]; unfold props_ok, value_ok, values_ok, field_ok, register_ok, cluster_ok, peripheral_ok, device_ok; cbv zeta;
    repeat match goal with |- _ /\ _ => split end; intros; contradiction.
Qed.

(** ** Less is asked of descriptions when nothing is validated *)
Section Lower.
  Variable l : level.
  Lemma lower_props p : props_fit l p -> props_fit Disabled p.
  Proof. intros (A & B & C & _). repeat (split; [assumption|]). apply (no_checks (EProps p)). Qed.
  Lemma lower_value e : value_fits l e -> value_fits Disabled e.
  Proof. intros (A & B & C & _). repeat (split; [assumption|]). apply (no_checks (EValue e)). Qed.
  Lemma lower_values e : values_fit l e -> values_fit Disabled e.
  Proof. intros (A & B & _). split; [exact A|]. split; [|apply (no_checks (EValues e))]. eapply Forall_impl; [|exact B]. exact lower_value. Qed.
  Lemma lower_any {A} (name : A -> string) (P Q : A -> Prop) x : (P (info x) -> Q (info x)) -> any_fits l name P x -> any_fits Disabled name Q x.
  Proof.
    intros F. destruct x as [i|i d]; cbn in *; [exact F|]. intros (H & (D1 & D2 & D3 & D4 & D5) & K). split; [auto|]. split; [|exact K].
    repeat (split; [assumption|]). destruct (de_array_index d) as [a|]; [|exact I]. destruct D5 as [X Y]. split; [exact X|].
    eapply Forall_impl; [|exact Y]. exact lower_value.
  Qed.
  Lemma lower_field f : field_fits l f -> field_fits Disabled f.
  Proof.
    intros (A & B & C & D & E & _). repeat (split; [assumption|]). split; [|apply (no_checks (EField f))].
    eapply Forall_impl; [|exact E]. exact lower_values.
  Qed.
  Lemma lower_register r : register_fits l r -> register_fits Disabled r.
  Proof.
    intros (A1 & A2 & A3 & A4 & A5 & A6 & A7 & A8 & A9 & _). repeat (split; [assumption|]). split; [now apply lower_props|].
    split; [exact A8|]. split; [|apply (no_checks (ERegister r))]. destruct (r_fields r) as [fs|]; [|exact I]. destruct A9 as [N F].
    split; [exact N|]. eapply Forall_impl; [|exact F]. intros f. apply lower_any. apply lower_field.
  Qed.
  Lemma lower_rc rc : rc_fits l rc -> rc_fits Disabled rc.
  Proof.
    induction rc as [r|c IH] using rc_tree_ind; intros H; inversion H as [? G|? G K]; subst; constructor.
    - eapply lower_any; [|exact G]. apply lower_register.
    - eapply lower_any; [|exact G]. intros (A1 & A2 & A3 & A4 & A5 & A6 & _). repeat (split; [assumption|]). split; [now apply lower_props|].
      apply (no_checks (ECluster _)).
    - rewrite Forall_forall in *. auto.
  Qed.
  Lemma lower_device d : device_fits l d -> device_fits Disabled d.
  Proof.
    intros (F1 & F2 & F3 & F4 & F5 & F6 & F7 & F8 & F9 & F10 & F11 & F12 & F13 & F14 & _). repeat (split; [assumption|]).
    split. { destruct F6 as [F6|[_ F6]]; [now left|]. right. split; [discriminate|exact F6]. }
    repeat (split; [assumption|]). split; [now apply lower_props|]. split; [|apply (no_checks (EDevice d))].
    eapply Forall_impl; [|exact F14]. intros p. apply lower_any.
    intros (A1 & A2 & A3 & A4 & A5 & A6 & A7 & A8 & A9 & A10 & A11 & A12 & A13 & A14 & _). repeat (split; [assumption|]). split; [now apply lower_props|].
    repeat (split; [assumption|]). split; [|apply (no_checks (EPeripheral _))]. destruct (p_registers (info p)) as [rs|]; [|exact I].
    eapply Forall_impl; [|exact A14]. exact lower_rc.
  Qed.
End Lower.

(** ** Filling in *)
Lemma Forall2_src {A B} (R : A -> B -> Prop) xs ys : Forall2 R xs ys -> forall b, In b ys -> exists a, In a xs /\ R a b.
Proof.
  induction 1 as [|a b x y H F IH]; intros c I; [destruct I|]. destruct I as [<-|I]; [exists a; split; [now left|exact H]|].
  destruct (IH _ I) as (z & Iz & Rz). exists z. split; [now right|exact Rz].
Qed.
Section Fill.
  Variable l : level.
  Lemma levels_numbers levels q : Forall numbers levels -> resolved levels q -> numbers q.
  Proof. apply (numbers_kept (fun x => x)). Qed.
  Lemma any_mapped {A} (name : A -> string) (P Q : A -> Prop) f x : name (f (info x)) = name (info x) -> (P (info x) -> Q (f (info x))) ->
    any_fits l name P x -> any_fits l name Q (mapped f x).
  Proof. destruct x as [i|i e]; cbn; intros E F; [exact F|]. rewrite E. tauto. Qed.
  Lemma info_mapped {A} (f : A -> A) x : info (mapped f x) = f (info x).
  Proof. now destruct x. Qed.
  Lemma filled_rc rc : forall levels rc', Forall numbers levels -> rc_fits l rc -> filled levels rc rc' -> (forall x, in_rc rc' x -> element_ok l x) -> rc_fits l rc'.
  Proof.
    induction rc as [r|c IH] using rc_tree_ind; intros levels rc' L F H V; inversion F as [? G|? G K]; subst.
    - inversion H as [|? ? r' D (q & R & E)| |]; subst; [exact F|]. constructor. eapply any_mapped; [reflexivity| |exact G].
      intros (A1 & A2 & A3 & A4 & A5 & A6 & A7 & A8 & A9 & A10). repeat (split; [assumption|]). split.
      { apply props_again.
        - eapply levels_numbers; [|exact R]. constructor; [|exact L]. destruct A7 as (X & Y & Z & _). repeat split; assumption.
        - apply (V (EProps q)). constructor.
          rewrite info_mapped. match goal with |- in_register ?i _ => exact (ir_props i) end. }
      split; [exact A8|]. split; [exact A9|]. exact A10.
    - inversion H as [| | |? ? c' kids D FF E]; subst; [exact F|]. constructor.
      + eapply any_mapped; [reflexivity| |exact G]. intros (A1 & A2 & A3 & A4 & A5 & A6 & A7). repeat (split; [assumption|]).
        pose proof (V _ (ic_self _)) as Q. rewrite info_mapped in Q. exact Q.
      + rewrite info_mapped. cbn [c_children]. apply Forall_forall. intros rc' I.
        assert (Z : exists rc, In rc (c_children (info c)) /\ filled (c_default_properties (info c) :: levels) rc rc').
        { exact (Forall2_src _ _ _ FF _ I). }
        destruct Z as (rc & Ir & R). rewrite Forall_forall in IH, K. eapply (IH rc Ir); [|auto|exact R|].
        * constructor; [|exact L]. destruct (any_info l _ _ _ G) as [(_ & _ & _ & _ & _ & (X & Y & Z & _) & _) _]. repeat split; assumption.
        * intros x X. apply V. eapply ic_child; [|exact X]. rewrite info_mapped. exact I.
  Qed.
  Lemma filled_arrays rc : forall levels rc', filled levels rc rc' -> forall s a, array_in_rc rc' s a -> array_in_rc rc s a.
  Proof.
    induction rc as [r|c IH] using rc_tree_ind; intros levels rc' H s a A.
    - inversion H as [|? ? r' D (q & R & E)| |]; subst; [exact A|].
      assert (Z : forall n, array_in_register (info (mapped (fun i => {| r_name := r_name i; r_display_name := r_display_name i;
           r_description := r_description i; r_alternate_group := r_alternate_group i;
           r_alternate_register := r_alternate_register i; r_address_offset := r_address_offset i;
           r_properties := q; r_datatype := r_datatype i; r_mwv := r_mwv i;
           r_write_constraint := r_write_constraint i; r_read_action := r_read_action i;
           r_fields := r_fields i; r_derived_from := r_derived_from i |}) r)) n a -> array_in_register (info r) n a).
      { intros n B. rewrite info_mapped in B. inversion B as [fs f ? E I]; subst. cbn in E. econstructor; eassumption. }
      destruct r as [i|i e]; cbn [mapped] in A; inversion A; subst; try (now apply ac_in_register, Z). exact (ac_register i a).
    - inversion H as [| | |? ? c' kids D FF E]; subst; [exact A|]. 
      match type of A with array_in_rc ?x _ _ => assert (Z0 : (exists i, x = RCCluster (Array i a) /\ s = c_name i) \/
        (exists rc, In rc kids /\ array_in_rc rc s a)) end.
      { inversion A as [| |i e E|? rc' ? ? I B]; subst; [left; eexists; split; reflexivity|right].
        rewrite info_mapped in I. cbn [c_children] in I. eauto. }
      destruct Z0 as [(i & E & ->)|(rc' & I & B)].
      + destruct c as [i'|i' e']; cbn in E; [discriminate|]. injection E as <- <-. cbn. exact (ac_cluster i' e').
      + 
        assert (Z : exists rc, In rc (c_children (info c)) /\ filled (c_default_properties (info c) :: levels) rc rc').
        { exact (Forall2_src _ _ _ FF _ I). }
        destruct Z as (rc & Ir & R). rewrite Forall_forall in IH. eapply ac_child; [exact Ir|]. eapply IH; eassumption.
  Qed.
End Fill.

Lemma filled_device l d d' : device_fits l d -> same_but_peripherals d d' ->
  Forall2 (filled_peripheral (d_default_properties d)) (d_peripherals d) (d_peripherals d') ->
  (forall x, in_device d' x -> element_ok l x) -> device_fits l d'.
Proof.
  intros (F1 & F2 & F3 & F4 & F5 & F6 & F7 & F8 & F9 & F10 & F11 & F12 & F13 & F14 & F15) (S1 & S2 & S3 & S4 & S5 & S6 & S7 & S8 & S9 & S10 & S11 & S12 & S13 & _) G V.
  unfold device_fits. rewrite S1, S2, S3, S4, S5, S6, S7, S8, S9, S10, S11, S12, S13. repeat (split; [assumption|]).
  split; [|apply (V (EDevice d')); constructor].
  assert (VP : forall p x, In p (d_peripherals d') -> in_peripheral (info p) x -> element_ok l x) by (intros p x I X; apply V; econstructor; eassumption).
  assert (N : numbers (d_default_properties d)) by (destruct F13 as (X & Y & Z & _); repeat split; assumption).
  clear - G F14 VP N. induction G as [|p p' ps ps' R G IH]; [constructor|]. inversion F14 as [|? ? Fp Fps]; subst. constructor; [|apply IH; [exact Fps|]; intros q x I; apply VP; now right].
  destruct R as [R1 R2]. destruct (p_derived_from (info p)) as [b|]; [now rewrite R1|]. destruct (R2 eq_refl) as (rs & -> & Rr).
  eapply any_mapped; [reflexivity| |exact Fp].
  intros (A1 & A2 & A3 & A4 & A5 & A6 & A7 & A8 & A9 & A10 & A11 & A12 & A13 & A14 & A15). repeat (split; [assumption|]).
  assert (VQ : forall x, in_peripheral (peripheral_with (info p) rs) x -> element_ok l x).
  { intros x X. eapply VP; [now left|]. now rewrite info_mapped. }
  split; [|apply (VQ (EPeripheral _)); constructor]. cbn [p_registers peripheral_with].
  destruct (p_registers (info p)) as [x|]; [|now subst rs]. destruct Rr as (y & -> & H). cbn in A14 |- *.
  assert (VR : forall rc z, In rc y -> in_rc rc z -> element_ok l z) by (intros rc z I Z; apply VQ; eapply ip_child; [reflexivity|exact I|exact Z]).
  assert (NL : Forall numbers [p_default_properties (info p); d_default_properties d]).
  { constructor; [|constructor; [exact N|constructor]]. destruct A11 as (X & Y & Z & _). repeat split; assumption. }
  clear - A14 H VR NL. induction H as [|a b x y R H IH]; [constructor|]. inversion A14; subst. constructor.
  - eapply filled_rc; [exact NL|eassumption|exact R|]. intros z. apply VR. now left.
  - apply IH; [assumption|]. intros rc z I. apply VR. now right.
Qed.
Lemma filled_device_arrays d d' : Forall2 (filled_peripheral (d_default_properties d)) (d_peripherals d) (d_peripherals d') ->
  forall s a, array_in_device d' s a -> array_in_device d s a.
Proof.
  intros G s a A.
  assert (Z : forall p', In p' (d_peripherals d') -> exists p, In p (d_peripherals d) /\ filled_peripheral (d_default_properties d) p p').
  { exact (Forall2_src _ _ _ G). }
  destruct A as [p a I|p n a I A]; destruct (Z _ I) as (q & Iq & R1 & R2).
  - destruct (p_derived_from (info q)) as [b|]; [rewrite <- R1 in Iq by discriminate; now constructor|].
    destruct (R2 eq_refl) as (rs & E & _). destruct q as [i|i e]; cbn in E; [discriminate|]. injection E as -> ->. cbn. now apply (ad_peripheral d i e).
  - destruct (p_derived_from (info q)) as [b|]; [rewrite <- R1 in Iq by discriminate; eapply ad_child; eassumption|].
    destruct (R2 eq_refl) as (rs & -> & Rr). rewrite info_mapped in A. inversion A as [rcs rc ? ? E Ir B]; subst. cbn in E. subst rs.
    destruct (p_registers (info q)) as [x|] eqn:Ex; [|discriminate]. destruct Rr as (y & Ey & H). injection Ey as <-.
    assert (W : exists rc0, In rc0 x /\ filled [p_default_properties (info q); d_default_properties d] rc0 rc).
    { exact (Forall2_src _ _ _ H _ Ir). }
    destruct W as (rc0 & I0 & R0). eapply ad_child; [exact Iq|]. econstructor; [exact Ex|exact I0|]. eapply filled_arrays; eassumption.
Qed.

(** ** Expanded descriptions: validity decides *)
Lemma flat_upgrade l e : flat_device e -> device_fits Disabled e -> (text_fits (d_description e) \/ (l <> Strict /\ d_description e = ""%string)) ->
  (forall x, in_device e x -> element_ok l x) -> device_fits l e.
Proof.
  intros FL (F1 & F2 & F3 & F4 & F5 & F6 & F7 & F8 & F9 & F10 & F11 & F12 & F13 & F14 & F15) T V.
  repeat (split; [assumption|]). split. { destruct F13 as (X & Y & Z & _). repeat (split; [assumption|]). apply (V (EProps _)). constructor. }
  split; [|apply (V (EDevice e)); constructor].
  apply Forall_forall. intros p Ip. unfold flat_device in FL. rewrite Forall_forall in F14, FL. specialize (F14 _ Ip). destruct (FL _ Ip) as (i & -> & _ & Fr). cbn in *.
  destruct F14 as (A1 & A2 & A3 & A4 & A5 & A6 & A7 & A8 & A9 & A10 & A11 & A12 & A13 & A14 & _).
  assert (VP : forall x, in_peripheral i x -> element_ok l x) by (intros x X; apply V; eapply id_peripheral; [exact Ip|exact X]).
  repeat (split; [assumption|]). split. { destruct A11 as (X & Y & Z & _). repeat (split; [assumption|]). apply (VP (EProps _)). constructor. }
  repeat (split; [assumption|]). split; [|apply (VP (EPeripheral i)); constructor].
  destruct (p_registers i) as [rs|] eqn:Er; [|exact I]. cbn in *. specialize (Fr _ eq_refl). apply Forall_forall. intros rc Ir.
  rewrite Forall_forall in A14, Fr. specialize (A14 _ Ir). destruct (Fr _ Ir) as (r & -> & j & -> & _ & Ff). inversion A14 as [? G|]; subst. constructor. cbn in *.
  assert (VR : forall x, in_register j x -> element_ok l x) by (intros x X; apply VP; eapply ip_child; [exact Er|exact Ir|now constructor]).
  destruct G as (B1 & B2 & B3 & B4 & B5 & B6 & B7 & B8 & B9 & _). repeat (split; [assumption|]).
  split. { destruct B7 as (X & Y & Z & _). repeat (split; [assumption|]). apply (VR (EProps _)). constructor. }
  split; [exact B8|]. split; [|apply (VR (ERegister j)); constructor]. destruct (r_fields j) as [fs|] eqn:Ef; [|exact I]. cbn in *. destruct B9 as [N B9].
  split; [exact N|]. specialize (Ff _ eq_refl). apply Forall_forall. intros f If. rewrite Forall_forall in B9, Ff. specialize (B9 _ If). destruct (Ff _ If) as (k & -> & _). cbn in *.
  assert (VF : forall x, in_field k x -> element_ok l x) by (intros x X; apply VR; eapply ir_field; [exact Ef|exact If|exact X]).
  destruct B9 as (C1 & C2 & C3 & C4 & C5 & _). repeat (split; [assumption|]). split; [|apply (VF (EField k)); constructor].
  apply Forall_forall. intros v Iv. rewrite Forall_forall in C5. destruct (C5 _ Iv) as (D1 & D2 & _). split; [exact D1|].
  split; [|apply (VF (EValues v)); eapply if_values; [exact Iv|constructor]]. apply Forall_forall. intros w Iw. rewrite Forall_forall in D2. destruct (D2 _ Iw) as (E1 & E2 & E3 & _).
  repeat (split; [assumption|]). apply (VF (EValue w)). eapply if_values; [exact Iv|]. now constructor.
Qed.
