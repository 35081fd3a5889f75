(** The fields of the registers of an expanded device. *)
From Coq Require Import Lia.
From Verif Require Import Base BaseFacts Types Arrays Expand SpecArray SpecExpand SpecLeaves SpecKept TreeFacts ArrayProofs InstanceProofs MaskProofs
  ExpandProofs LeafProofs.

Notation regs := (flat_map (fun rc => match rc with RCRegister r => [info r] | RCCluster _ => [] end)).

Lemma regs_concat (ls : list (list register_cluster)) : regs (List.concat ls) = List.concat (map (fun l => regs l) ls).
Proof. induction ls as [|l ls IH]; [reflexivity|]. cbn. now rewrite flat_map_app, IH. Qed.
Lemma regs_singles (l : list register_info) : regs (map (fun i => RCRegister (Single i)) l) = l.
Proof. induction l as [|i l IH]; [reflexivity|]. cbn. f_equal. exact IH. Qed.
Lemma concat_zip {A B} (R : A -> B -> Prop) ls ls' : Forall2 (Forall2 R) ls ls' -> Forall2 R (List.concat ls) (List.concat ls').
Proof. induction 1 as [|x y l l' X H IH]; cbn; [constructor|]. now apply Forall2_app. Qed.
Lemma repeat_zip {A B} (R : A -> B -> Prop) x l : Forall (R x) l -> Forall2 R (repeat x (List.length l)) l.
Proof. induction 1; cbn; constructor; assumption. Qed.

Section Kept.
  Variables (m : mode) (ix : index).

  Definition group_of (f : field) (out : list field) : Prop :=
    List.length out = copies f /\
    (forall g, In g out -> exists i, g = Single i /\ starts f (br_offset (f_bit_range i)) /\ role i = role (info f)) /\
    (forall s, starts f s -> exists i, In (Single i) out /\ br_offset (f_bit_range i) = s /\ role i = role (info f)).

  Lemma field_kept k path f out : settled m f -> expand_field m ix k path f = Ok out -> group_of f out.
  Proof.
    intros [D W] H. unfold expand_field in H. rewrite D in H. cbn [bind fst snd] in H.
    apply bind_ok in H as (evs & _ & H). destruct f as [i|i d]; cbn [ma_map] in H.
    - injection H as <-. split; [reflexivity|]. split.
      + intros g [<-|[]]. eexists. split; [reflexivity|]. split; reflexivity.
      + intros s ->. eexists. split; [left; reflexivity|]. split; reflexivity.
    - apply bind_ok in H as (l & L & H). injection H as <-.
      rewrite field_expand_instances in L. apply instances_spec in L as [HL L]; [|discriminate].
      assert (X : forall j, j < de_dim d -> exists x, nth_N l j = Some x /\
                    br_offset (f_bit_range x) = br_offset (f_bit_range i) + j * de_increment d /\ role x = role i).
      { intros j Hj. destruct (L j Hj) as (idx & off & _ & H3 & H4 & H2). exists (field_mk (f_set_enums i evs) d idx off).
        split; [exact H2|]. split; [|reflexivity]. cbn in *.
        destruct W as [->|W]; [now apply H4|]. rewrite H3. apply N.mod_small. apply W. exists j. split; [exact Hj|reflexivity]. }
      split; [|split].
      + rewrite map_length. unfold len_N in HL. cbn [copies]. lia.
      + intros g G. apply in_map_iff in G as (x & <- & G). apply In_nth_error in G as [n G].
        assert (Hn : N.of_nat n < de_dim d).
        { unfold len_N in HL. assert (n < List.length l)%nat by (apply nth_error_Some; congruence). lia. }
        destruct (X _ Hn) as (y & Y & E & R). unfold nth_N in Y. rewrite Nat2N.id, G in Y. injection Y as <-.
        exists x. split; [reflexivity|]. split; [|exact R]. exists (N.of_nat n). split; assumption.
      + intros s (j & Hj & ->). destruct (X _ Hj) as (y & Y & E & R). exists y. split; [|split; assumption].
        apply List.in_map. unfold nth_N in Y. eapply nth_error_In. exact Y.
  Qed.

  Definition kept (x y : register_info) : Prop :=
    exists groups, or_empty (r_fields y) = List.concat groups /\ Forall2 group_of (or_empty (r_fields x)) groups.

  Lemma register_kept k path r out : r_derived_from (info r) = None -> Forall (settled m) (or_empty (r_fields (info r))) ->
    expand_register_array m ix k path r = Ok out -> Forall2 kept (registers_of (RCRegister r)) (regs out).
  Proof.
    intros D W H. unfold expand_register_array in H. rewrite D in H. cbn [bind fst snd] in H.
    apply bind_ok in H as (r' & R & H).
    assert (S : copies r' = copies r /\ kept (info r) (info r') /\
                match r, r' with Single _, Single _ => True | Array _ d, Array _ d' => d = d' | _, _ => False end).
    { destruct (r_fields (info r)) as [fs|] eqn:E.
      - apply bind_ok in R as (l & L & R). injection R as <-. split; [now destruct r|]. split; [|destruct r; reflexivity || exact I].
        apply concatM_ok in L as (ls & L & ->). exists ls. split; [now destruct r|]. rewrite E. cbn [or_empty] in *.
        clear - W L. induction L as [|f o fs os X L IH]; [constructor|]. inversion W; subst. constructor; [|now apply IH].
        eapply field_kept; eassumption.
      - injection R as <-. split; [reflexivity|]. split; [|destruct r; reflexivity || exact I]. exists []. rewrite E. split; [reflexivity|constructor]. }
    destruct S as (C & K & S). cbn [registers_of]. rewrite <- C. destruct r' as [i|i d].
    - injection H as <-. cbn. constructor; [exact K|constructor].
    - apply bind_ok in H as (l & L & H). injection H as <-. rewrite regs_singles. cbn [copies].
      unfold register_expand in L. assert (Z := mapM_length _ _ _ L). apply mapM_ok in L.
      rewrite <- (upto_length (de_dim d)), <- Z. apply repeat_zip.
      apply Forall_forall. intros y Y. destruct (in_zip _ _ _ L _ Y) as (n & _ & X).
      unfold register_instance in X. apply bind_ok in X as (idx & _ & X). apply bind_ok in X as (off & _ & X).
      injection X as <-. exact K.
  Qed.
  Lemma hoisted_kept xs c out : Forall2 kept xs (regs (c_children c)) -> expand_cluster m c = Ok out -> Forall2 kept xs (regs out).
  Proof.
    unfold expand_cluster. intros F H. apply mapM_ok in H. revert xs F.
    induction H as [|x y l l' X H IH]; intros xs F; [exact F|].
    destruct x as [r|?]; [|discriminate X]. apply bind_ok in X as (off & _ & X). injection X as <-.
    cbn [flat_map app] in *. inversion F; subst. constructor; [|now apply IH].
    match goal with H : kept _ (info r) |- _ => destruct H as (gs & G & Q) end. exists gs. split; [destruct r; exact G|exact Q].
  Qed.
  Lemma all_kept (f : register_cluster -> res (list register_cluster)) rcs ls :
    (forall rc l, plain_rc rc -> fields_below (settled m) rc -> f rc = Ok l -> Forall2 kept (registers_of rc) (regs l)) ->
    Forall plain_rc rcs -> Forall (fields_below (settled m)) rcs ->
    Forall2 (fun rc l => f rc = Ok l) rcs ls -> Forall2 (Forall2 kept) (map registers_of rcs) (map (fun l => regs l) ls).
  Proof.
    intros IH K W E. induction E as [|x y l l' X E IHl]; cbn [map]; [constructor|].
    inversion K; inversion W; subst. constructor; [now apply IH|now apply IHl].
  Qed.
  Lemma rc_kept k : forall path rc out, plain_rc rc -> fields_below (settled m) rc -> expand_rc m ix k path rc = Ok out ->
    Forall2 kept (registers_of rc) (regs out).
  Proof.
    induction k as [|k IH]; intros path rc out P W H; [discriminate|]. cbn [expand_rc] in H.
    destruct P as [r D|c D K]; inversion W as [? Wr|? Wc]; subst; [eapply register_kept; eassumption|].
    unfold cluster_info, cluster in *. rewrite D in H. cbn [bind fst snd] in H. apply bind_ok in H as (kids & E & H).
    assert (F : Forall2 kept (flat_map registers_of (c_children (info c))) (regs kids)).
    { apply concatM_ok in E as (ls & E & ->). rewrite regs_concat, <- concat_map_flat. apply concat_zip.
      refine (all_kept (expand_rc m ix k _) _ _ _ K Wc E). intros rc l. apply IH. }
    cbn [registers_of]. unfold cluster_info in *. destruct c as [i|i d]; cbn [ma_map copies info] in *.
    - cbn [repeat List.concat]. rewrite app_nil_r. refine (hoisted_kept _ _ _ _ H). exact F.
    - apply concatM_ok in H as (ls & H & ->). rewrite regs_concat. apply concat_zip.
      rewrite <- (upto_length (de_dim d)).
      clear - F H. induction H as [|x y l l' X H IH]; [constructor|]. cbn [map List.length repeat]. constructor; [|exact IH].
      apply bind_ok in X as (c & C & X). refine (hoisted_kept _ _ _ _ X).
      unfold cluster_instance in C. apply bind_ok in C as (idx & _ & C). apply bind_ok in C as (off & _ & C).
      injection C as <-. exact F.
  Qed.
  Lemma peripheral_kept k p out : p_derived_from (info p) = None -> Forall plain_rc (or_empty (p_registers (info p))) ->
    Forall (fields_below (settled m)) (or_empty (p_registers (info p))) -> expand_peripheral m ix k p = Ok out ->
    Forall2 (Forall2 kept) (registers_of_peripheral p) (map flat_registers out).
  Proof.
    intros D K W H. unfold expand_peripheral in H. rewrite D in H. cbn [bind fst snd] in H.
    apply bind_ok in H as (p' & R & H).
    assert (S : copies p' = copies p /\ Forall2 kept (flat_map registers_of (or_empty (p_registers (info p)))) (flat_registers p')).
    { destruct (p_registers (info p)) as [rs|] eqn:G.
      - apply bind_ok in R as (l & L & R). injection R as <-. split; [now destruct p|]. unfold flat_registers.
        assert (Z : p_registers (info (ma_map (fun i => p_with i (Some l) (p_derived_from i)) p)) = Some l) by now destruct p.
        rewrite Z. cbn [or_empty] in *. apply concatM_ok in L as (ls & L & ->). rewrite regs_concat, <- concat_map_flat. apply concat_zip.
        refine (all_kept _ _ _ _ K W L). intros rc l. apply rc_kept.
      - injection R as <-. split; [reflexivity|]. unfold flat_registers. rewrite G. constructor. }
    destruct S as [C F]. unfold registers_of_peripheral. rewrite <- C. destruct p' as [i|i d].
    - injection H as <-. constructor; [exact F|constructor].
    - apply bind_ok in H as (l & L & H). injection H as <-. unfold peripheral_expand in L.
      assert (Z := mapM_length _ _ _ L). apply mapM_ok in L. cbn [copies].
      assert (X : Forall (Forall2 kept (flat_map registers_of (or_empty (p_registers (info p))))) (map flat_registers (map Single l))).
      { apply Forall_forall. intros y Y. apply in_map_iff in Y as (q & <- & Y). apply in_map_iff in Y as (x & <- & Y).
        destruct (in_zip _ _ _ L _ Y) as (n & _ & X).
        unfold peripheral_instance in X. apply bind_ok in X as (idx & _ & X). apply bind_ok in X as (off & _ & X).
        injection X as <-. exact F. }
      apply repeat_zip in X. rewrite !map_length, Z, upto_length in X. exact X.
  Qed.
End Kept.

Lemma device_kept_fields m fuel d e : plain_device d -> all_fields (settled m) d -> expand m fuel d = Ok e ->
  Forall2 (Forall2 one_each) (flat_map registers_of_peripheral (d_peripherals d)) (map flat_registers (d_peripherals e)).
Proof.
  intros P W H. unfold expand in H. apply bind_ok in H as (ix & _ & H). apply bind_ok in H as (ps & L & H). injection H as <-.
  cbn [d_set_peripherals d_peripherals]. unfold plain_device, all_fields in *.
  apply concatM_ok in L as (ls & L & ->). rewrite concat_map, <- concat_map_flat. apply concat_zip.
  induction L as [|p out l l' X L IH]; cbn [map]; [constructor|]. inversion P as [|? ? [D K] P']; inversion W; subst.
  constructor; [|now apply IH]. eapply peripheral_kept; eassumption.
Qed.

Lemma covers_starts f k : field_covers f k <-> exists s, starts f s /\ bits_of s (br_width (f_bit_range (info f))) k.
Proof.
  destruct f as [i|i d]; cbn.
  - split; [intros H; exists (br_offset (f_bit_range i)); auto|intros (s & -> & H); exact H].
  - split; [intros (j & J & H); eauto 6|intros (s & (j & J & ->) & H); eauto].
Qed.
Lemma role_width i j : role i = role j -> br_width (f_bit_range i) = br_width (f_bit_range j).
Proof. unfold role. congruence. Qed.
Lemma one_each_bits x y : one_each x y -> same_bits x y.
Proof.
  intros (gs & E & F) a k. unfold covered. rewrite E. clear E. split.
  - intros (f & I & R & C). apply covers_starts in C as (s & S & B).
    induction F as [|g out fs outs (L & X & Y) F IH]; [destruct I|]. destruct I as [->|I].
    + destruct (Y _ S) as (i & J & O & Q). exists (Single i). cbn [info field_covers List.concat]. split; [apply in_or_app; now left|].
      split; [congruence|]. rewrite O, (role_width _ _ Q). exact B.
    + destruct (IH I) as (g' & J & Z). exists g'. split; [cbn; apply in_or_app; now right|exact Z].
  - intros (g & I & R & C).
    induction F as [|f out fs outs (L & X & Y) F IH]; [destruct I|]. cbn in I. apply in_app_or in I as [I|I].
    + destruct (X _ I) as (i & -> & S & Q). exists f. split; [now left|]. cbn in R, C. split; [congruence|].
      apply covers_starts. exists (br_offset (f_bit_range i)). split; [exact S|]. rewrite <- (role_width _ _ Q). exact C.
    + destruct (IH I) as (f' & J & Z). exists f'. split; [now right|exact Z].
Qed.
Lemma Forall2_mono {A B} (R S : A -> B -> Prop) l l' : (forall x y, R x y -> S x y) -> Forall2 R l l' -> Forall2 S l l'.
Proof. intros H. induction 1; constructor; auto. Qed.
Lemma device_kept_bits m fuel d e : plain_device d -> all_fields (settled m) d -> expand m fuel d = Ok e ->
  Forall2 (Forall2 same_bits) (flat_map registers_of_peripheral (d_peripherals d)) (map flat_registers (d_peripherals e)).
Proof.
  intros P W H. eapply Forall2_mono; [|eapply device_kept_fields; eassumption]. intros x y.
  apply Forall2_mono. exact one_each_bits.
Qed.

(** ** Masks *)
Definition wordy (r : register_info) : Prop := Forall in_word (or_empty (r_fields r)).
Lemma one_each_word x y : wordy x -> one_each x y -> Forall maskable (or_empty (r_fields y)).
Proof.
  intros W (gs & E & F). rewrite E. clear E. unfold wordy in W.
  induction F as [|f out fs outs (L & X & _) F IH]; cbn; [constructor|]. inversion W as [|? ? [M S] W']; subst.
  apply Forall_app. split; [|now apply IH]. apply Forall_forall. intros g G. destruct (X _ G) as (i & -> & T & Q).
  cbn [maskable]. split; [|now apply S]. rewrite (role_width _ _ Q). destruct f; [apply M|apply (proj1 M)].
Qed.
Lemma iter_fields r : r_fields_iter r = or_empty (r_fields r).
Proof. unfold r_fields_iter. now destruct (r_fields r). Qed.
Lemma one_each_mask m x y : wordy x -> one_each x y -> exists v, register_bitmask m x = Ok v /\ register_bitmask m y = Ok v.
Proof.
  intros W O. pose proof (one_each_word _ _ W O) as My. pose proof (one_each_bits _ _ O) as B.
  assert (Mx : Forall maskable (or_empty (r_fields x))) by (eapply Forall_impl; [|exact W]; intros f [H _]; exact H).
  destruct (register_bitmask_ok m x) as (v & V & T); [rewrite iter_fields; exact Mx|].
  destruct (register_bitmask_ok m y) as (w & U & S); [rewrite iter_fields; exact My|].
  exists v. split; [exact V|]. rewrite U. f_equal. apply N.bits_inj. intros k.
  apply Bool.eq_iff_eq_true. rewrite S, T, !iter_fields. unfold same_bits, covered in B.
  split; intros [Hk (f & I & C)]; (split; [exact Hk|]).
  - destruct (proj2 (B (role (info f)) k)) as (g & J & _ & D); [exists f; auto|]. eauto.
  - destruct (proj1 (B (role (info f)) k)) as (g & J & _ & D); [exists f; auto|]. eauto.
Qed.
Lemma zip_with_left {A B} (P : A -> Prop) (R : A -> B -> Prop) l l' : Forall P l -> Forall2 R l l' -> Forall2 (fun x y => P x /\ R x y) l l'.
Proof. intros F H. induction H; inversion F; subst; constructor; auto. Qed.
Lemma repeat_Forall {A} (P : A -> Prop) x n : P x -> Forall P (repeat x n).
Proof. intros H. induction n; cbn; constructor; auto. Qed.
Lemma concat_Forall {A} (P : A -> Prop) ls : Forall (Forall P) ls -> Forall P (List.concat ls).
Proof. induction 1; cbn; [constructor|]. now apply Forall_app. Qed.
Lemma registers_wordy rc : fields_below in_word rc -> Forall wordy (registers_of rc).
Proof.
  induction rc as [r|c IH] using rc_tree_ind; intros H; inversion H; subst; cbn [registers_of].
  - now apply repeat_Forall.
  - apply concat_Forall. apply repeat_Forall. rewrite <- concat_map_flat. apply concat_Forall.
    rewrite Forall_forall in *. intros l I. apply in_map_iff in I as (rc & <- & I). rewrite Forall_forall. 
    apply Forall_forall. apply IH; auto.
Qed.
Lemma device_kept_masks m m' fuel d e : plain_device d -> all_fields (settled m) d -> all_fields in_word d -> expand m fuel d = Ok e ->
  Forall2 (Forall2 (fun x y => exists v, register_bitmask m' x = Ok v /\ register_bitmask m' y = Ok v))
    (flat_map registers_of_peripheral (d_peripherals d)) (map flat_registers (d_peripherals e)).
Proof.
  intros P W I H. pose proof (device_kept_fields _ _ _ _ P W H) as F.
  assert (Y : Forall (Forall wordy) (flat_map registers_of_peripheral (d_peripherals d))).
  { rewrite <- concat_map_flat. apply concat_Forall. unfold all_fields in I. rewrite Forall_forall in *. intros l L.
    apply in_map_iff in L as (p & <- & L). apply repeat_Forall. rewrite <- concat_map_flat. apply concat_Forall.
    apply Forall_forall. intros x X. apply in_map_iff in X as (rc & <- & X). apply registers_wordy.
    pose proof (I _ L) as Q. rewrite Forall_forall in Q. now apply Q. }
  eapply Forall2_mono; [|exact (zip_with_left _ _ _ _ Y F)]. intros x y [A B].
  eapply Forall2_mono; [|exact (zip_with_left _ _ _ _ A B)]. intros a b [C D]. now apply one_each_mask.
Qed.

(** ** Instances that overlap *)
Lemma instances_disjoint f d l : field_expand Debug f d = Ok l -> 2 <= de_dim d ->
  ((forall i j x y k, i <> j -> nth_error l i = Some x -> nth_error l j = Some y ->
      field_covers (Single x) k -> ~ field_covers (Single y) k) <-> br_width (f_bit_range f) <= de_increment d).
Proof.
  intros H D. rewrite field_expand_instances in H. apply instances_spec in H as [HL H]; [|discriminate].
  assert (X : forall i x, nth_error l i = Some x -> br_offset (f_bit_range x) = br_offset (f_bit_range f) + N.of_nat i * de_increment d /\
                br_width (f_bit_range x) = br_width (f_bit_range f)).
  { intros i x Hi. assert (Li : N.of_nat i < de_dim d).
    { unfold len_N in HL. assert (i < List.length l)%nat by (apply nth_error_Some; congruence). lia. }
    destruct (H _ Li) as (idx & off & _ & _ & H4 & H2). unfold nth_N in H2. rewrite Nat2N.id, Hi in H2. injection H2 as ->.
    cbn. split; [now apply H4|reflexivity]. }
  split.
  - intros S. destruct (N.le_gt_cases (br_width (f_bit_range f)) (de_increment d)) as [L|L]; [exact L|exfalso].
    destruct (nth_error l 0) as [x|] eqn:E0; [|apply nth_error_None in E0; unfold len_N in HL; lia].
    destruct (nth_error l 1) as [y|] eqn:E1; [|apply nth_error_None in E1; unfold len_N in HL; lia].
    destruct (X _ _ E0) as [O0 W0], (X _ _ E1) as [O1 W1].
    apply (S 0%nat 1%nat x y (br_offset (f_bit_range f) + de_increment d)); auto; cbn; unfold bits_of; rewrite ?O0, ?W0, ?O1, ?W1; lia.
  - intros L i j x y k N Hx Hy Cx Cy. destruct (X _ _ Hx) as [Ox Wx], (X _ _ Hy) as [Oy Wy].
    cbn in Cx, Cy. unfold bits_of in *. rewrite Ox, Wx in Cx. rewrite Oy, Wy in Cy.
    set (w := br_width (f_bit_range f)) in *. set (c := de_increment d) in *. set (o := br_offset (f_bit_range f)) in *.
    assert (Z : (i < j)%nat \/ (j < i)%nat) by lia. destruct Z as [Z|Z].
    + assert (N.of_nat i * c + c <= N.of_nat j * c) by (replace (N.of_nat i * c + c) with ((N.of_nat i + 1) * c) by lia; apply N.mul_le_mono_r; lia). lia.
    + assert (N.of_nat j * c + c <= N.of_nat i * c) by (replace (N.of_nat j * c + c) with ((N.of_nat j + 1) * c) by lia; apply N.mul_le_mono_r; lia). lia.
Qed.
