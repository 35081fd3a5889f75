(** Proofs for C79: what expansion makes of the texts and numbers of a description. *)
From Coq Require Import List NArith String Ascii Lia.
Import ListNotations.
From Verif Require Import Base BaseFacts Types SpecNum NumProofs SpecArray SpecText SpecXml SpecValidate SpecParse SpecRound SpecDerive SpecExpand ArrayProofs DeriveProofs TreeFacts ExactProofs
  EnumProofs FitProofs SpecAgain.
Open Scope N_scope.
Open Scope list_scope.

(** ** Texts *)
Definition unseen (s : string) : Prop := Forall (fun c => ~ printable c) (list_ascii_of_string s).
Lemma unseen_cons c s : unseen (String c s) <-> ~ printable c /\ unseen s.
Proof. unfold unseen. cbn. split; [intros H; inversion H; auto|intros [? ?]; constructor; auto]. Qed.
Lemma unseen_app a b : unseen (a ++ b) <-> unseen a /\ unseen b.
Proof. unfold unseen. rewrite list_ascii_app. apply Forall_app. Qed.
Lemma white_unseen c : white c -> unseen c /\ c <> ""%string.
Proof.
  intros (n & I & ->). cbn in I.
  repeat (destruct I as [<-|I]; [split; [|discriminate]; repeat constructor; unfold printable; vm_compute; intros [A B]; first [now apply A|now apply B]|]).
  destruct I.
Qed.
Lemma text_fits_spec s : text_fits s <-> s <> ""%string /\ (forall c u, white c -> s <> (c ++ u)%string) /\ (forall c u, white c -> s <> (u ++ c)%string).
Proof.
  split.
  - intros (N & a & b & E & Sa & Sb & P & Q). auto.
  - intros (N & P & Q). split; [exact N|]. exists ""%string, ""%string. repeat split; auto; try constructor.
    cbn. clear. induction s; cbn; congruence.
Qed.
Lemma app_nil_r_s s : (s ++ "")%string = s.
Proof. induction s; cbn; congruence. Qed.
Lemma app_assoc_s (a b c : string) : ((a ++ b) ++ c = a ++ (b ++ c))%string.
Proof. induction a; cbn; congruence. Qed.
(** Two ways to cut a text: one of the cuts comes first. *)
Lemma split_two (a b c d : string) : (a ++ b = c ++ d)%string ->
  (exists m, c = (a ++ m)%string /\ b = (m ++ d)%string) \/ (exists m, a = (c ++ m)%string /\ d = (m ++ b)%string).
Proof.
  revert c. induction a as [|x a IH]; intros c E; cbn in *.
  - left. exists c. auto.
  - destruct c as [|y c]; cbn in E.
    + right. exists (String x a). auto.
    + injection E as -> E. destruct (IH c E) as [(m & -> & ->)|(m & -> & ->)]; [left|right]; exists m; auto.
Qed.
Section Replace.
  Variables pat by_ : string.
  Hypothesis B : edged by_.
  Lemma by_seen : ~ unseen by_.
  Proof. destruct B as [(c & t & -> & P) _]. rewrite unseen_cons. tauto. Qed.
  Lemma replaced_front s r : replaced pat by_ s r -> forall w u, unseen w -> r = (w ++ u)%string -> exists v, s = (w ++ v)%string.
  Proof.
    induction 1 as [|s r H IH|c s r N H IH]; intros w u U E.
    - destruct w; [now exists ""%string|discriminate].
    - destruct w as [|x w]; [now exists (pat ++ s)%string|].
      destruct B as [(c & t & Eb & P) _]. rewrite Eb in E. cbn in E. injection E as <- _.
      apply unseen_cons in U. destruct U. contradiction.
    - destruct w as [|x w]; [now exists (String c s)|]. cbn in E. injection E as <- E.
      apply unseen_cons in U. destruct (IH w u (proj2 U) E) as (v & ->). now exists v.
  Qed.
  Lemma replaced_unseen s r : replaced pat by_ s r -> unseen r -> s = r.
  Proof.
    induction 1 as [|s r H IH|c s r N H IH]; intros U; [reflexivity| |].
    - apply unseen_app in U. destruct (by_seen (proj1 U)).
    - apply unseen_cons in U. now rewrite IH.
  Qed.
  Lemma replaced_back s r : replaced pat by_ s r -> forall w u, unseen w -> r = (u ++ w)%string -> exists v, s = (v ++ w)%string.
  Proof.
    induction 1 as [|s r H IH|c s r N H IH]; intros w u U E.
    - destruct u; [|discriminate]. cbn in E. subst w. now exists ""%string.
    - destruct (split_two _ _ _ _ E) as [(k & _ & Er)|(k & Eb & Ew)].
      + destruct (IH w k U Er) as (v & ->). exists (pat ++ v)%string. now rewrite app_assoc_s.
      + destruct B as [_ (c & t & Ec & P)]. rewrite Ec in Eb.
        destruct k as [|x k].
        * cbn in Ew. destruct (IH r ""%string) as (v & Ev); [now subst w|reflexivity|]. subst w. exists (pat ++ v)%string.
          rewrite app_assoc_s. congruence.
        * exfalso. assert (K : exists k', String x k = (k' ++ String c "")%string).
          { clear -Eb. destruct (split_two _ _ _ _ Eb) as [(j & -> & Ej)|(j & -> & Ej)].
            - destruct j as [|y j]; [exists ""%string; cbn in Ej; now symmetry|]. cbn in Ej. injection Ej as -> Ej. destruct j; discriminate.
            - exists j. exact Ej. }
          destruct K as (k' & K). subst w. rewrite K in U. apply unseen_app in U. destruct U as [U _]. apply unseen_app in U.
          destruct U as [_ U]. apply unseen_cons in U. tauto.
    - destruct u as [|x u].
      + cbn in E. subst w. apply unseen_cons in U. rewrite (replaced_unseen _ _ H (proj2 U)). now exists ""%string.
      + cbn in E. injection E as <- E. destruct (IH w u U E) as (v & ->). now exists (String c v).
  Qed.
  Lemma replaced_nonempty s r : replaced pat by_ s r -> s <> ""%string -> r <> ""%string.
  Proof.
    destruct 1; [tauto| |discriminate]. intros _ E. destruct B as [(c & t & Eb & _) _]. rewrite Eb in E. discriminate.
  Qed.
  Lemma replaced_fits s r : replaced pat by_ s r -> text_fits s -> text_fits r.
  Proof.
    rewrite !text_fits_spec. intros R (N & F & K). split; [now apply (replaced_nonempty s)|]. split.
    - intros c u W E. destruct (replaced_front _ _ R c u) as (v & E'); [now apply white_unseen|exact E|]. now apply (F c v).
    - intros c u W E. destruct (replaced_back _ _ R c u) as (v & E'); [now apply white_unseen|exact E|]. now apply (K c v).
  Qed.
End Replace.
Lemma filled_fits idx s r : edged idx -> filled idx s r -> text_fits s -> text_fits r.
Proof. intros E (u & A & B) F. eapply replaced_fits; [exact E|exact B|]. eapply replaced_fits; eassumption. Qed.
Lemma joined_fits a b : text_fits a -> text_fits b -> text_fits (a ++ "_" ++ b).
Proof.
  rewrite !text_fits_spec. intros (Na & Fa & Ka) (Nb & Fb & Kb).
  assert (S : printable "_") by (unfold printable; vm_compute; split; discriminate). split; [destruct a; discriminate|]. split.
  - intros c u W E. destruct (white_unseen c W) as [U _].
    destruct (split_two _ _ _ _ E) as [(k & -> & Ek)|(k & Ea & _)]; [|now apply (Fa c k)].
    destruct k as [|x k].
    + now apply (Fa a ""%string); [rewrite app_nil_r_s in W|rewrite app_nil_r_s].
    + cbn in Ek. injection Ek as <- _. apply unseen_app in U. destruct U as [_ U]. apply unseen_cons in U. tauto.
  - intros c u W E. destruct (white_unseen c W) as [U _]. rewrite <- app_assoc_s in E.
    destruct (split_two _ _ _ _ E) as [(k & _ & Eb)|(k & Ea & ->)]; [now apply (Kb c k)|].
    destruct k as [|x k].
    + now apply (Kb b ""%string).
    + destruct (split_two _ _ _ _ Ea) as [(j & -> & Ej)|(j & -> & Ej)].
      * destruct j as [|y j].
        -- cbn in Ej. injection Ej as <- <-. apply unseen_cons in U. tauto.
        -- cbn in Ej. injection Ej as _ Ej. destruct j; discriminate.
      * rewrite Ej in U. rewrite !unseen_app in U. destruct U as [[_ U] _]. apply unseen_cons in U. tauto.
Qed.

(** ** Chains *)
Lemma follows_all {A} ref self (step : list string -> string -> list string -> A -> Prop) (P : A -> Prop) : (forall ctx s path x, step ctx s path x -> P x) ->
  forall ctx o l, @follows A ref self step ctx o l -> Forall P (paths l).
Proof. intros S ctx o l H. induction H; cbn; constructor; eauto. Qed.
Lemma nearest_all {A B} (get : A -> option B) (Q : B -> Prop) l v : Forall (fun x => opt_all Q (get x)) l -> nearest get l v -> opt_all Q v.
Proof.
  induction 1 as [|x l H F IH]; cbn; [now intros ->|]. intros [(b & E & ->)|[_ K]]; [|auto]. now rewrite E in H.
Qed.
Lemma nearest_list_all {A B} (get : A -> list B) (Q : list B -> Prop) l v : Q [] -> Forall (fun x => Q (get x)) l -> nearest_list get l v -> Q v.
Proof.
  intros Z. induction 1 as [|x l H F IH]; cbn; [now intros ->|]. intros [(_ & ->)|[_ K]]; auto.
Qed.
Lemma Forall2_right {A B} (R : A -> B -> Prop) (P : A -> Prop) (Q : B -> Prop) xs ys : Forall2 R xs ys -> Forall P xs ->
  (forall a b, P a -> R a b -> Q b) -> Forall Q ys.
Proof. induction 1; intros F K; inversion F; subst; constructor; eauto. Qed.
Lemma Forall_concat' {A} (P : A -> Prop) ls : Forall (Forall P) ls -> Forall P (List.concat ls).
Proof. induction 1; cbn; [constructor|]. apply Forall_app. auto. Qed.
Lemma instances_all {A} (one : A -> dim_element -> N -> A -> Prop) (P Q : A -> Prop) (D : dim_element -> Prop) x l :
  instances_of one x l -> P (info x) -> (forall e, dims x = Some e -> D e) ->
  (forall i, x = Single i -> P i -> Q i) -> (forall i e k y, P i -> D e -> k < de_dim e -> one i e k y -> Q y) -> Forall Q l.
Proof.
  destruct x as [i|i e]; cbn; intros I Pi Hd Hs Ha.
  - subst l. constructor; auto.
  - destruct I as [L I]. apply Forall_forall. intros y Iy. destruct (In_nth_error _ _ Iy) as (n & En).
    assert (Ln : (n < List.length l)%nat) by (apply nth_error_Some; congruence).
    unfold len_N in L. assert (K : N.of_nat n < de_dim e) by lia.
    destruct (I _ K) as (y' & E & O). unfold nth_N in E. rewrite Nnat.Nat2N.id in E. rewrite En in E. injection E as <-. eauto.
Qed.

Section Kept.
  Variables (l : level) (m : mode) (d : device).
  Hypothesis FD : device_fits l d.
  Hypothesis TD : forall s e, array_in_device d s e -> tidy_array e.
  Notation afits name P x := (any_fits l name P x).

  (** ** The elements of the description *)
  Definition dims_tidy {A} (x : maybe_array A) : Prop := forall e, dims x = Some e -> tidy_array e /\ dim_fits l e.
  Definition kf (f : field) : Prop := field_fits l (info f) /\ dims_tidy f.
  Definition kr (r : register) : Prop := register_fits l (info r) /\ dims_tidy r /\ opt_all (Forall kf) (r_fields (info r)).
  Inductive krc : register_cluster -> Prop :=
    | k_reg r : kr r -> krc (RCRegister r)
    | k_clu c : cluster_fits l (info c) -> dims_tidy c -> Forall krc (c_children (info c)) -> krc (RCCluster c).
  Definition kp (p : peripheral) : Prop := peripheral_fits l (info p) /\ dims_tidy p /\ opt_all (Forall krc) (p_registers (info p)).

  Lemma any_info {A} (name : A -> string) P (x : maybe_array A) : afits name P x ->
    P (info x) /\ forall e, dims x = Some e -> dim_fits l e.
  Proof. destruct x; cbn; [intros H; split; [exact H|discriminate]|intros (H & D & _); split; [exact H|]]. now intros ? [= <-]. Qed.
  Lemma kf_start f : afits f_name (field_fits l) f -> (forall i e, f = Array i e -> tidy_array e) -> kf f.
  Proof.
    intros F T. destruct (any_info _ _ _ F) as [A B]. split; [exact A|]. intros e E. split; [|auto].
    destruct f; [discriminate|]. cbn in E. injection E as <-. eauto.
  Qed.
  Lemma krc_start rc : rc_fits l rc -> (forall s e, array_in_rc rc s e -> tidy_array e) -> krc rc.
  Proof.
    induction rc as [r|c IH] using rc_tree_ind; intros F T; inversion F as [? G|? G H]; subst.
    - destruct (any_info _ _ _ G) as [A B]. constructor. split; [exact A|]. split.
      + intros e E. split; [|auto]. destruct r; [discriminate|]. cbn in E. injection E as <-. eapply T. constructor.
      + destruct A as (_ & _ & _ & _ & _ & _ & _ & _ & A & _). destruct (r_fields (info r)) as [fs|] eqn:Ef; [|exact I].
        destruct A as [_ A]. apply Forall_forall. intros f If. rewrite Forall_forall in A. apply kf_start; [auto|].
        intros i e ->. eapply T. apply ac_in_register. econstructor; eassumption.
    - destruct (any_info _ _ _ G) as [A B]. constructor; [exact A| |].
      + intros e E. split; [|auto]. destruct c; [discriminate|]. cbn in E. injection E as <-. eapply T. constructor.
      + apply Forall_forall. intros rc I. rewrite Forall_forall in IH, H. apply IH; auto. intros s e K. eapply T. eapply ac_child; eassumption.
  Qed.
  Lemma kp_start p : In p (d_peripherals d) -> kp p.
  Proof.
    intros Ip. assert (G : afits p_name (peripheral_fits l) p).
    { destruct FD as (_ & _ & _ & _ & _ & _ & _ & _ & _ & _ & _ & _ & _ & F & _). rewrite Forall_forall in F. auto. }
    destruct (any_info _ _ _ G) as [A B]. split; [exact A|]. split.
    - intros e E. split; [|auto]. destruct p; [discriminate|]. cbn in E. injection E as <-. eapply TD. constructor. exact Ip.
    - destruct A as (_ & _ & _ & _ & _ & _ & _ & _ & _ & _ & _ & _ & _ & A & _).
      destruct (p_registers (info p)) as [rs|] eqn:Er; [|exact I]. apply Forall_forall. intros rc I. cbn in A. rewrite Forall_forall in A.
      apply krc_start; [auto|]. intros s e K. eapply TD. eapply ad_child; [exact Ip|]. econstructor; eassumption.
  Qed.
  Lemma k_peripheral path p : peripheral_placed d path p -> kp p.
  Proof. intros (n & _ & I & _). now apply kp_start. Qed.
  Lemma k_children path kids : children_placed d path kids -> Forall krc kids.
  Proof.
    induction 1 as [path p P|path n kids c H IH I C].
    - destruct (k_peripheral _ _ P) as (_ & _ & K). destruct (p_registers (info p)); [exact K|constructor].
    - rewrite Forall_forall in IH. specialize (IH _ I). now inversion IH.
  Qed.
  Lemma k_cluster path c : cluster_placed d path c -> krc (RCCluster c).
  Proof. intros (b & n & kids & _ & H & I & _). apply k_children in H. rewrite Forall_forall in H. auto. Qed.
  Lemma k_register path r : register_placed d path r -> kr r.
  Proof. intros (b & n & kids & _ & H & I & _). apply k_children in H. rewrite Forall_forall in H. specialize (H _ I). now inversion H. Qed.
  Lemma k_field path f : field_placed d path f -> kf f.
  Proof.
    intros (b & n & r & _ & H & I & _). apply k_register in H. destruct H as (_ & _ & H). destruct (r_fields (info r)); [|destruct I].
    cbn in H, I. rewrite Forall_forall in H. auto.
  Qed.
  Lemma k_values path e : values_placed d path e -> values_fit l e.
  Proof.
    intros (b & n & f & _ & H & I & _). apply k_field in H. destruct H as ((_ & _ & _ & _ & H & _) & _). rewrite Forall_forall in H. auto.
  Qed.

  (** ** The elements of the expanded description, apart from validity *)
  Definition ov (e : enumerated_values) : Prop := text_opt (evs_name e) /\ Forall (value_fits l) (evs_values e).
  Definition of_ (f : field_info) : Prop :=
    text_fits (f_name f) /\ text_opt (f_description f) /\ bits_fit (f_bit_range f) /\
    opt_all constraint_fits (f_write_constraint f) /\ Forall ov (f_enumerated_values f).
  Definition numbers (p : reg_props) : Prop :=
    below (2 ^ 32) (rp_size p) /\ below (2 ^ 64) (rp_reset_value p) /\ below (2 ^ 64) (rp_reset_mask p).
  Definition or_ (r : register_info) : Prop :=
    text_fits (r_name r) /\ text_opt (r_display_name r) /\ text_opt (r_description r) /\
    text_opt (r_alternate_group r) /\ text_opt (r_alternate_register r) /\ r_address_offset r < 2 ^ 32 /\
    numbers (r_properties r) /\ opt_all constraint_fits (r_write_constraint r) /\
    opt_all (fun fs => fs <> [] /\ exists is, fs = map Single is /\ Forall of_ is) (r_fields r).
  Definition op (p : peripheral_info) : Prop :=
    text_fits (p_name p) /\ text_opt (p_display_name p) /\ text_opt (p_version p) /\ text_opt (p_description p) /\
    text_opt (p_alternate_peripheral p) /\ text_opt (p_group_name p) /\ text_opt (p_prepend_to_name p) /\
    text_opt (p_append_to_name p) /\ text_opt (p_header_struct_name p) /\ p_base_address p < 2 ^ 64 /\
    numbers (p_default_properties p) /\
    opt_all (fun bs => bs <> [] /\ Forall block_fits bs) (p_address_block p) /\
    Forall interrupt_fits (p_interrupt p) /\
    opt_all (fun rs => exists is, rs = map (fun i => RCRegister (Single i)) is /\ Forall or_ is) (p_registers p).

  (** ** Instances *)
  Lemma printable_visible c : visible c = true -> printable c.
  Proof. unfold visible, printable, byte. rewrite Bool.andb_true_iff, !N.leb_le. tauto. Qed.
  Lemma all_edged s : s <> ""%string -> sforall visible s = true -> edged s.
  Proof.
    intros N V. assert (W : forall c, In c (list_ascii_of_string s) -> printable c).
    { intros c I. apply printable_visible. eapply sforall_in; eassumption. }
    clear V. split.
    - destruct s as [|c t]; [congruence|]. exists c, t. split; [reflexivity|]. apply W. cbn. auto.
    - assert (E : exists c t, s = (t ++ String c "")%string).
      { clear W. induction s as [|c s IH]; [congruence|]. destruct s as [|x s]; [now exists c, ""%string|].
        destruct IH as (y & t & E); [discriminate|]. rewrite E. now exists y, (String c t). }
      destruct E as (c & t & ->). exists c, t. split; [reflexivity|]. apply W. rewrite list_ascii_app. apply List.in_or_app. cbn. auto.
  Qed.
  Lemma index_edged e k idx : tidy_array e -> index_text e k idx -> edged idx.
  Proof.
    unfold index_text. intros [_ T]. destruct (de_index e) as [is|].
    - intros E. specialize (T _ eq_refl). rewrite Forall_forall in T. apply T. eapply nth_error_In. exact E.
    - intros E. apply numeral_to_string in E. subst idx. apply all_edged; [|apply to_string_visible].
      pose proof (to_string_numeral k) as [D _]. now destruct D as (ds & NE & _).
  Qed.
  Lemma entry_fits e idx v : dim_fits l e -> entry_for e idx v -> text_fits (ev_name v) /\ text_opt (ev_description v).
  Proof.
    intros (_ & _ & _ & _ & A) (dai & b & a & n & E & Ev & _). rewrite E in A. destruct A as [_ A]. rewrite Ev in A.
    apply Forall_app in A. destruct A as [_ A]. inversion A as [|? ? (N & D & _)]; subst. auto.
  Qed.
  Lemma name_kept e k idx t n : tidy_array e /\ dim_fits l e -> index_text e k idx -> name_of_instance e t idx n -> text_fits t -> text_fits n.
  Proof.
    intros [T D] I [(v & E & ->)|[_ F]] K; [eapply entry_fits; eassumption|]. eapply filled_fits; eauto using index_edged.
  Qed.
  Lemma description_kept e k idx t n : tidy_array e /\ dim_fits l e -> index_text e k idx -> description_of_instance e t idx n -> text_opt t -> text_opt n.
  Proof.
    intros [T D] I [(v & x & E & Ex & ->)|[_ F]] K.
    - destruct (entry_fits _ _ _ D E) as [_ H]. now rewrite Ex in H.
    - destruct t as [t|]; [|now subst n]. destruct F as (r & -> & F). cbn in *. eapply filled_fits; eauto using index_edged.
  Qed.
  Lemma template_kept e k idx t n : tidy_array e /\ dim_fits l e -> index_text e k idx -> template_text idx t n -> text_opt t -> text_opt n.
  Proof.
    intros [T D] I F K. destruct t as [t|]; [|now rewrite F]. destruct F as (r & -> & F). cbn in *. eapply filled_fits; eauto using index_edged.
  Qed.
  Lemma sum_below b a x : 0 < b -> sum_is m b a x -> x < b.
  Proof. intros P [-> _]. apply N.mod_lt. lia. Qed.
  Lemma dims_kept {A} (name : A -> string) (x : maybe_array A) chain y : dims_tidy x -> Forall dims_tidy chain -> nearest_dims name x chain y -> dims_tidy y.
  Proof.
    unfold nearest_dims. intros Dx Dc H e E. destruct (dims x) as [e0|] eqn:Ex.
    - rewrite H in E. injection E as <-. now apply Dx.
    - destruct H as [H1 H2]. assert (O : occurs "%s" (name (info x))).
      { apply contains_occurs. destruct (contains "%s" (name (info x))) eqn:C; [reflexivity|]. rewrite H2 in E; [discriminate|].
        rewrite <- contains_occurs, C. discriminate. }
      destruct (H1 O) as (o & N & M). rewrite E in M. destruct o as [e1|]; [|destruct M]. destruct M as (M1 & M2 & M3 & M4 & M5).
      assert (K : tidy_array e1 /\ dim_fits l e1).
      { change (opt_all (fun e => tidy_array e /\ dim_fits l e) (Some e1)). eapply nearest_all; [|exact N].
        eapply Forall_impl; [|exact Dc]. intros z Z. destruct (dims z) eqn:Ez; [cbn; now apply Z|exact I]. }
      destruct K as [[K1 K2] (K3 & K4 & K5 & K6 & K7)]. unfold tidy_array, dim_fits. rewrite M1, M2, M3, M4, M5. repeat split; auto.
  Qed.

  (** ** Expansion *)
  Lemma values_kept ctx e e' : values_fit l e -> values_expanded d ctx e e' -> ov e'.
  Proof.
    intros (A & B & _) (chain & F & N & _ & _ & V). split; [now rewrite N|].
    apply (nearest_list_all evs_values (Forall (value_fits l))) in V; [exact V|constructor|]. constructor; [exact B|].
    apply (@Forall_impl _ (values_fit l)); [|eapply follows_all; [|exact F]].
    - intros x (_ & H & _). exact H.
    - intros c s path x (_ & P). eapply k_values; eassumption.
  Qed.
  Lemma chain_infos {A} (P : A -> Prop) (x : maybe_array A) chain : P (info x) -> Forall (fun y => P (info y)) chain -> Forall P (map info (x :: chain)).
  Proof. intros Hx H. cbn. constructor; [exact Hx|]. induction H; cbn; auto. Qed.
  Lemma field_kept ctx f out : kf f -> field_expanded m d ctx f out -> Forall of_ out /\ out <> [].
  Proof.
    intros [Ff Df] (chain & f1 & ctx' & evs & F & (ND & En & Eb & _ & Vd & _ & _ & Vw & _ & Vv) & _ & EV & I).
    assert (C : Forall kf (paths chain)). { eapply follows_all; [|exact F]. intros c s path x [_ P]. eapply k_field; eassumption. }
    assert (CI : Forall (field_fits l) (map info (f :: paths chain))).
    { apply chain_infos; [exact Ff|]. eapply Forall_impl; [|exact C]. now intros y [Y _]. }
    assert (D1 : dims_tidy f1). { eapply dims_kept; [exact Df| |exact ND]. eapply Forall_impl; [|exact C]. now intros y [_ Y]. }
    destruct Ff as (F1 & F2 & F3 & F4 & F5 & F6).
    assert (Dd : text_opt (f_description (info f1))). { eapply nearest_all; [|exact Vd]. eapply Forall_impl; [|exact CI]. now intros y (_ & Y & _). }
    assert (Dw : opt_all constraint_fits (f_write_constraint (info f1))).
    { eapply nearest_all; [|exact Vw]. eapply Forall_impl; [|exact CI]. now intros y (_ & _ & _ & Y & _). }
    assert (Dv : Forall (values_fit l) (f_enumerated_values (info f1))).
    { apply (nearest_list_all f_enumerated_values (Forall (values_fit l))) in Vv; [exact Vv|constructor|].
      eapply Forall_impl; [|exact CI]. now intros y (_ & _ & _ & _ & Y & _). }
    assert (De : Forall ov evs). { eapply Forall2_right; [exact EV|exact Dv|]. intros a b. apply values_kept. }
    split.
    - eapply (instances_all _ of_ of_ (fun e => tidy_array e /\ dim_fits l e)); [exact I| | | |].
      + assert (Q : of_ (field_with (info f1) evs)).
        { unfold of_, field_with. cbn. rewrite En, Eb. auto. }
        now destruct f1.
      + intros e E. apply D1. now destruct f1.
      + auto.
      + intros i e k y (H1 & H2 & H3 & H4 & H5) T K (idx & X & Y1 & Y2 & Y3 & Y4 & Y5 & _ & _ & Y6 & _ & Y7 & _).
        repeat split.
        * eapply name_kept; eassumption.
        * eapply name_kept; eassumption.
        * eapply description_kept; eassumption.
        * eapply sum_below; [|exact Y3]. reflexivity.
        * rewrite Y4. apply H3.
        * congruence.
        * congruence.
        * now rewrite Y6.
        * now rewrite Y7.
    - destruct f1 as [i|i e]; cbn in I; [subst; discriminate|]. destruct I as [L _]. intros ->. cbn in L.
      destruct (D1 e eq_refl) as [[Z _] _]. lia.
  Qed.
  Lemma numbers_kept {A} (get : A -> reg_props) xs v : Forall (fun x => numbers (get x)) xs -> nearest_props get xs v -> numbers v.
  Proof.
    intros F (A1 & _ & _ & A4 & A5). repeat split.
    - eapply nearest_all; [|exact A1]. eapply Forall_impl; [|exact F]. now intros x (H & _ & _).
    - eapply nearest_all; [|exact A4]. eapply Forall_impl; [|exact F]. now intros x (_ & H & _).
    - eapply nearest_all; [|exact A5]. eapply Forall_impl; [|exact F]. now intros x (_ & _ & H).
  Qed.
  Lemma fit_numbers p : props_fit l p -> numbers p.
  Proof. intros (A & B & C & _). repeat split; assumption. Qed.
  Lemma register_kept ctx r out : kr r -> register_expanded m d ctx r out -> Forall or_ out.
  Proof.
    intros (Fr & Dr & Kr) (chain & r1 & ctx' & fs & F & (ND & En & Edn & Eag & Ear & Eo & _ & _ & Vp & Vd & _ & Vw & _ & Vf) & _ & EF & I).
    assert (C : Forall kr (paths chain)). { eapply follows_all; [|exact F]. intros c s path x [_ P]. eapply k_register; eassumption. }
    assert (CI : Forall (register_fits l) (map info (r :: paths chain))).
    { apply chain_infos; [exact Fr|]. eapply Forall_impl; [|exact C]. now intros y [Y _]. }
    assert (D1 : dims_tidy r1). { eapply dims_kept; [exact Dr| |exact ND]. eapply Forall_impl; [|exact C]. now intros y (_ & Y & _). }
    assert (Dd : text_opt (r_description (info r1))). { eapply nearest_all; [|exact Vd]. eapply Forall_impl; [|exact CI]. now intros y (_ & _ & Y & _). }
    assert (Dw : opt_all constraint_fits (r_write_constraint (info r1))).
    { eapply nearest_all; [|exact Vw]. eapply Forall_impl; [|exact CI]. now intros y (_ & _ & _ & _ & _ & _ & _ & Y & _). }
    assert (Dp : numbers (r_properties (info r1))).
    { eapply numbers_kept; [|exact Vp]. eapply Forall_impl; [|exact CI]. intros y (_ & _ & _ & _ & _ & _ & Y & _). now apply fit_numbers. }
    assert (Df : opt_all (fun x => x <> [] /\ Forall kf x) (r_fields (info r1))).
    { eapply nearest_all; [|exact Vf]. apply (chain_infos (fun y => opt_all (fun x => x <> [] /\ Forall kf x) (r_fields y))).
      - destruct Fr as (_ & _ & _ & _ & _ & _ & _ & _ & Y & _). destruct (r_fields (info r)); [|exact Logic.I]. cbn in *. tauto.
      - eapply Forall_impl; [|exact C]. intros y ((_ & _ & _ & _ & _ & _ & _ & _ & Y & _) & _ & Z).
        destruct (r_fields (info y)); [|exact Logic.I]. cbn in *. tauto. }
    assert (Do : opt_all (fun x => x <> [] /\ exists is, x = map Single is /\ Forall of_ is) fs).
    { destruct (r_fields (info r1)) as [x|]; [|now subst fs]. destruct EF as (groups & FF & ->). cbn in *. destruct Df as [N K].
      assert (G : Forall (fun g => Forall of_ g /\ g <> []) groups). { eapply Forall2_right; [exact FF|exact K|]. intros a b. apply field_kept. }
      split.
      - destruct FF as [|a g x groups H FF]; [congruence|]. inversion G as [|? ? [_ Z]]; subst. cbn. destruct g; [congruence|discriminate].
      - exists (List.concat groups). split; [reflexivity|]. apply Forall_concat'. eapply Forall_impl; [|exact G]. tauto. }
    destruct Fr as (F1 & F2 & F3 & F4 & F5 & F6 & F7 & F8 & F9 & F10).
    eapply (instances_all _ or_ or_ (fun e => tidy_array e /\ dim_fits l e)); [exact I| | | |].
    - assert (Q : or_ (register_with (info r1) fs)).
      { unfold or_, register_with. cbn. rewrite En, Edn, Eag, Ear, Eo. repeat (split; [assumption|]). exact Do. }
      now destruct r1.
    - intros e E. apply D1. now destruct r1.
    - auto.
    - intros i e k y (H1 & H2 & H3 & H4 & H5 & H6 & H7 & H8 & H9) T K (idx & X & Y1 & Y2 & Y3 & Y4 & Y5 & Y6 & Y7 & _ & _ & Y8 & _ & Y9 & _).
      unfold or_. rewrite Y5, Y6, Y7, Y8, Y9. split; [eapply name_kept; eassumption|]. split; [eapply template_kept; eassumption|].
      split; [eapply description_kept; eassumption|]. split; [assumption|]. split; [assumption|].
      split; [eapply sum_below; [reflexivity|exact Y4]|]. auto.
  Qed.
  Lemma hoisted_kept n off x y : text_fits n -> or_ x -> hoisted m n off x y -> or_ y.
  Proof.
    intros Hn (H1 & H2 & H3 & H4 & H5 & H6 & H7 & H8 & H9) (Y1 & Y2 & Y3 & Y4 & Y5 & Y6 & Y7 & _ & _ & Y8 & _ & Y9 & _).
    unfold or_. rewrite Y1, Y3, Y4, Y5, Y6, Y7, Y8, Y9. split; [now apply joined_fits|]. repeat (split; [assumption|]).
    split; [eapply sum_below; [reflexivity|exact Y2]|]. auto.
  Qed.
  Lemma child_kept ctx rc out : krc rc -> child_expanded m d ctx rc out -> Forall or_ out.
  Proof.
    intros K H. revert K. refine (child_ind m d (fun ctx rc out => krc rc -> Forall or_ out) _ _ ctx rc out H); clear ctx rc out H.
    - intros ctx r out H K. inversion K; subst. eapply register_kept; eassumption.
    - intros ctx c chain c1 ctx' groups cs outs F (ND & En & _ & _ & _ & _ & _ & _ & Vk) _ FG IH I HO K.
      inversion K as [|? Fc Dc Kc]; subst.
      assert (C : Forall (fun c => krc (RCCluster c)) (paths chain)).
      { eapply follows_all; [|exact F]. intros x s path y [_ P]. eapply k_cluster; eassumption. }
      assert (D1 : dims_tidy c1).
      { eapply dims_kept; [exact Dc| |exact ND]. eapply Forall_impl; [|exact C]. intros y Y. now inversion Y. }
      assert (D2 : Forall krc (c_children (info c1))).
      { apply (nearest_list_all c_children (Forall krc)) in Vk; [exact Vk|constructor|].
        apply (chain_infos (fun y => Forall krc (c_children y))); [exact Kc|]. eapply Forall_impl; [|exact C]. intros y Y. now inversion Y. }
      assert (G : Forall or_ (List.concat groups)).
      { apply Forall_concat'. eapply Forall2_right; [exact IH|exact D2|]. cbn. auto. }
      assert (N : Forall (fun k => text_fits (c_name k)) cs).
      { eapply (instances_all _ (fun k => text_fits (c_name k)) (fun k => text_fits (c_name k)) (fun e => tidy_array e /\ dim_fits l e)); [exact I| |exact D1|auto|].
        - refine (eq_ind_r text_fits _ En). apply Fc.
        - intros i e k y Hi T Hk (idx & X & Y & _). eapply name_kept; eassumption. }
      apply Forall_concat'. eapply Forall2_right; [exact HO|exact N|]. cbn. intros k o Hk Ho.
      eapply Forall2_right; [exact Ho|exact G|]. intros x y Hx Hy. eapply hoisted_kept; eassumption.
  Qed.
  Lemma peripheral_kept p out : In p (d_peripherals d) -> peripheral_expanded m d p out -> Forall op out.
  Proof.
    intros Ip (chain & p1 & ctx' & rs & F & (ND & En & Edn & Eap & Eb & _ & Vp & Vv & Vd & Vg & Vpre & Vapp & Vh & Vb & Vi & Vr) & _ & ER & I).
    pose proof (kp_start _ Ip) as (Fp & Dp & Kp).
    assert (C : Forall kp (paths chain)). { eapply follows_all; [|exact F]. intros c s path x [_ P]. eapply k_peripheral; eassumption. }
    assert (CI : Forall (peripheral_fits l) (map info (p :: paths chain))).
    { apply chain_infos; [exact Fp|]. eapply Forall_impl; [|exact C]. now intros y [Y _]. }
    assert (D1 : dims_tidy p1). { eapply dims_kept; [exact Dp| |exact ND]. eapply Forall_impl; [|exact C]. now intros y (_ & Y & _). }
    assert (G : forall {B} (Q : B -> Prop) get v, nearest get (map info (p :: paths chain)) v ->
      (forall y, peripheral_fits l y -> opt_all Q (get y)) -> opt_all Q v).
    { intros B Q get v H K. eapply nearest_all; [|exact H]. eapply Forall_impl; [|exact CI]. exact K. }
    assert (Do : opt_all (fun rs => exists is, rs = map (fun i => RCRegister (Single i)) is /\ Forall or_ is) rs).
    { assert (Df : opt_all (Forall krc) (p_registers (info p1))).
      { eapply nearest_all; [|exact Vr]. apply (chain_infos (fun y => opt_all (Forall krc) (p_registers y))); [exact Kp|].
        eapply Forall_impl; [|exact C]. now intros y (_ & _ & Y). }
      destruct (p_registers (info p1)) as [x|]; [|now subst rs]. destruct ER as (groups & FF & ->). cbn in *.
      exists (List.concat groups). split; [reflexivity|]. apply Forall_concat'. eapply Forall2_right; [exact FF|exact Df|].
      intros a b. apply child_kept. }
    pose proof Fp as (P1 & P2 & P3 & P4 & P5 & P6 & P7 & P8 & P9 & P10 & P11 & P12 & P13 & P14 & P15).
    assert (Q : op (peripheral_with (info p1) rs)).
    { unfold op, peripheral_with. cbn. rewrite En, Edn, Eap, Eb.
      split; [assumption|]. split; [assumption|].
      split; [eapply G; [exact Vv|]; intros ? (Z1 & Z2 & Z3 & Z4 & Z5 & Z6 & Z7 & Z8 & Z9 & Z10 & Z11 & Z12 & Z13 & Z14 & Z15); assumption|].
      split; [eapply G; [exact Vd|]; intros ? (Z1 & Z2 & Z3 & Z4 & Z5 & Z6 & Z7 & Z8 & Z9 & Z10 & Z11 & Z12 & Z13 & Z14 & Z15); assumption|]. split; [assumption|].
      split; [eapply G; [exact Vg|]; intros ? (Z1 & Z2 & Z3 & Z4 & Z5 & Z6 & Z7 & Z8 & Z9 & Z10 & Z11 & Z12 & Z13 & Z14 & Z15); assumption|].
      split; [eapply G; [exact Vpre|]; intros ? (Z1 & Z2 & Z3 & Z4 & Z5 & Z6 & Z7 & Z8 & Z9 & Z10 & Z11 & Z12 & Z13 & Z14 & Z15); assumption|].
      split; [eapply G; [exact Vapp|]; intros ? (Z1 & Z2 & Z3 & Z4 & Z5 & Z6 & Z7 & Z8 & Z9 & Z10 & Z11 & Z12 & Z13 & Z14 & Z15); assumption|].
      split; [eapply G; [exact Vh|]; intros ? (Z1 & Z2 & Z3 & Z4 & Z5 & Z6 & Z7 & Z8 & Z9 & Z10 & Z11 & Z12 & Z13 & Z14 & Z15); assumption|]. split; [assumption|].
      split. { eapply numbers_kept; [|exact Vp]. eapply Forall_impl; [|exact CI]. intros y (Z1 & Z2 & Z3 & Z4 & Z5 & Z6 & Z7 & Z8 & Z9 & Z10 & Z11 & Z12 & Z13 & Z14 & Z15). now apply fit_numbers. }
      split; [eapply G; [exact Vb|]; intros ? (Z1 & Z2 & Z3 & Z4 & Z5 & Z6 & Z7 & Z8 & Z9 & Z10 & Z11 & Z12 & Z13 & Z14 & Z15); assumption|].
      split; [|exact Do].
      apply (nearest_list_all p_interrupt (Forall interrupt_fits)) in Vi; [exact Vi|constructor|].
      eapply Forall_impl; [|exact CI]. intros y (Z1 & Z2 & Z3 & Z4 & Z5 & Z6 & Z7 & Z8 & Z9 & Z10 & Z11 & Z12 & Z13 & Z14 & Z15); assumption. }
    eapply (instances_all _ op op (fun e => tidy_array e /\ dim_fits l e)); [exact I|now destruct p1|intros e E; apply D1; now destruct p1|auto|].
    intros i e k y (H1 & H2 & H3 & H4 & H5 & H6 & H7 & H8 & H9 & H10 & H11 & H12 & H13 & H14) T K
      (idx & X & Y1 & Y2 & Y3 & Y4 & Y5 & Y6 & Y7 & Y8 & Y9 & Y10 & Y11 & Y12 & Y13 & Y14 & _).
    unfold op. rewrite Y5, Y6, Y7, Y8, Y9, Y10, Y11, Y12, Y13, Y14.
    split; [eapply name_kept; eassumption|]. split; [eapply template_kept; eassumption|]. split; [assumption|].
    split; [eapply description_kept; eassumption|]. repeat (split; [assumption|]).
    split; [eapply sum_below; [reflexivity|exact Y4]|]. auto.
  Qed.
  Lemma peripheral_some p out : In p (d_peripherals d) -> peripheral_expanded m d p out -> out <> [].
  Proof.
    intros Ip (chain & p1 & ctx' & rs & F & (ND & _) & _ & _ & I). pose proof (kp_start _ Ip) as (_ & Dp & _).
    assert (D1 : dims_tidy p1).
    { eapply dims_kept; [exact Dp| |exact ND]. eapply (@Forall_impl _ kp); [now intros y (_ & Y & _)|]. eapply follows_all; [|exact F].
      intros c s path x [_ P]. eapply k_peripheral; eassumption. }
    destruct p1 as [i|i e]; cbn in I; [subst; discriminate|]. destruct I as [L _]. intros ->. cbn in L.
    destruct (D1 e eq_refl) as [[Z _] _]. lia.
  Qed.
  Lemma expanded_some e : device_expanded m d e -> d_peripherals d <> [] -> d_peripherals e <> [].
  Proof.
    intros (_ & groups & G & ->) N. destruct (d_peripherals d) as [|p ps] eqn:E; [congruence|]. inversion G as [|? g ? gs H]; subst.
    apply peripheral_some in H; [|rewrite E; now left]. destruct g; [congruence|discriminate].
  Qed.
End Kept.

(** ** With validity, the expanded description fits *)
Section Valid.
  Variable l : level.
  Lemma values_again e : ov l e -> (forall x, in_values e x -> element_ok l x) -> values_fit l e.
  Proof. intros (A & B) V. split; [exact A|]. split; [exact B|]. apply (V (EValues e)). constructor. Qed.
  Lemma field_again f : of_ l f -> (forall x, in_field f x -> element_ok l x) -> field_fits l f.
  Proof.
    intros (A & B & C & D & E) V. repeat (split; [assumption|]). split; [|apply (V (EField f)); constructor].
    apply Forall_forall. intros e I. rewrite Forall_forall in E. apply values_again; [auto|]. intros x X. apply V. econstructor; eassumption.
  Qed.
  Lemma props_again p : numbers p -> props_ok l p -> props_fit l p.
  Proof. intros (A & B & C) V. repeat (split; [assumption|]). exact V. Qed.
  Lemma register_again r : or_ l r -> (forall x, in_register r x -> element_ok l x) -> register_fits l r.
  Proof.
    intros (A1 & A2 & A3 & A4 & A5 & A6 & A7 & A8 & A9) V. repeat (split; [assumption|]).
    split. { apply props_again; [exact A7|]. apply (V (EProps (r_properties r))). constructor. }
    split; [exact A8|]. split; [|apply (V (ERegister r)); constructor].
    destruct (r_fields r) as [fs|] eqn:Ef; [|exact I]. destruct A9 as [N (is & -> & F)]. split; [exact N|].
    apply Forall_forall. intros f If. apply in_map_iff in If. destruct If as (i & <- & Ii). cbn. rewrite Forall_forall in F.
    apply field_again; [auto|]. intros x X. apply V. eapply ir_field; [exact Ef|apply List.in_map; exact Ii|exact X].
  Qed.
  Lemma peripheral_again p : op l p -> (forall x, in_peripheral p x -> element_ok l x) -> peripheral_fits l p.
  Proof.
    intros (A1 & A2 & A3 & A4 & A5 & A6 & A7 & A8 & A9 & A10 & A11 & A12 & A13 & A14) V. repeat (split; [assumption|]).
    split. { apply props_again; [exact A11|]. apply (V (EProps (p_default_properties p))). constructor. }
    split; [exact A12|]. split; [exact A13|]. split; [|apply (V (EPeripheral p)); constructor].
    destruct (p_registers p) as [rs|] eqn:Er; [|exact I]. destruct A14 as (is & -> & F).
    apply Forall_forall. intros rc Ir. apply in_map_iff in Ir. destruct Ir as (i & <- & Ii). constructor. cbn. rewrite Forall_forall in F.
    apply register_again; [auto|]. intros x X. apply V. eapply ip_child; [exact Er|apply in_map_iff; exists i; split; [reflexivity|exact Ii]|now constructor].
  Qed.
  Theorem expanded_fits m d e : device_fits l d -> (forall s a, array_in_device d s a -> tidy_array a) -> device_expanded m d e ->
    (forall x, in_device e x -> element_ok l x) -> device_fits l e.
  Proof.
    intros F T (S & groups & G & E) V.
    assert (K : Forall (op l) (List.concat groups)).
    { apply Forall_concat'. eapply (Forall2_right _ (fun p => In p (d_peripherals d))); [exact G|apply Forall_forall; auto|].
      cbn. intros p out. now apply peripheral_kept. }
    destruct S as (S1 & S2 & S3 & S4 & S5 & S6 & S7 & S8 & S9 & S10 & S11 & S12 & S13 & _).
    destruct F as (F1 & F2 & F3 & F4 & F5 & F6 & F7 & F8 & F9 & F10 & F11 & F12 & F13 & F14 & F15).
    unfold device_fits. rewrite S1, S2, S3, S4, S5, S6, S7, S8, S9, S10, S11, S12, S13. repeat (split; [assumption|]).
    split; [|apply (V (EDevice e)); constructor].
    rewrite E. apply Forall_forall. intros p Ip. apply in_map_iff in Ip. destruct Ip as (i & <- & Ii). cbn. rewrite Forall_forall in K.
    apply peripheral_again; [auto|]. intros x X. apply V. eapply id_peripheral; [rewrite E; apply List.in_map; exact Ii|exact X].
  Qed.
End Valid.
Lemma flat_no_arrays e s a : flat_device e -> ~ array_in_device e s a.
Proof.
  intros F A. unfold flat_device in F. rewrite Forall_forall in F. destruct A as [p a Ip|p n a Ip A]; destruct (F _ Ip) as (i & E & _ & R); [discriminate|].
  subst p. destruct A as [rs rc n a Er Ir A]. cbn in Er. specialize (R _ Er). rewrite Forall_forall in R. destruct (R _ Ir) as (r & -> & j & -> & _ & Q).
  inversion A as [|? ? ? B| |]; subst. destruct B as [fs f a Ef If]. cbn in Ef. specialize (Q _ Ef). rewrite Forall_forall in Q. destruct (Q _ If) as (k & K & _). discriminate.
Qed.
