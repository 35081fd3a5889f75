From Verif Require Import BaseFacts Types TreeFacts BuilderProofs Derive Arrays ArrayProofs InstanceProofs Expand SpecExpand PathProofs.

(** ** Sequencing *)
Lemma concatM_in {A B} (f : A -> res (list B)) l l' b :
  concatM f l = Ok l' -> In b l' -> exists a bs, In a l /\ f a = Ok bs /\ In b bs.
Proof.
  intros H I. apply concatM_ok in H as (ls & H & ->). apply in_concat in I as (bs & I & J).
  destruct (Forall2_in_r _ _ _ H _ I) as (a & Ia & E). eauto.
Qed.
Lemma concatM_forall {A B} (P : B -> Prop) (f : A -> res (list B)) l l' :
  (forall a bs, In a l -> f a = Ok bs -> Forall P bs) -> concatM f l = Ok l' -> Forall P l'.
Proof.
  intros H E. apply Forall_forall. intros b I. destruct (concatM_in _ _ _ _ E I) as (a & bs & Ia & Ea & Ib).
  specialize (H a bs Ia Ea). rewrite Forall_forall in H. auto.
Qed.
Lemma mapM_forall {A B} (P : B -> Prop) (f : A -> res B) l l' :
  (forall a b, In a l -> f a = Ok b -> P b) -> mapM f l = Ok l' -> Forall P l'.
Proof.
  intros H E. apply mapM_ok in E. apply Forall_forall. intros b I.
  destruct (Forall2_in_r _ _ _ E _ I) as (a & Ia & Ea). eauto.
Qed.

(** Which panics an outcome may be. *)
Definition only_panics {A} (S : panic -> Prop) (r : res A) : Prop := forall p, r = Panic p -> S p.
Lemma op_ok {A} S (a : A) : only_panics S (Ok a). Proof. discriminate. Qed.
Lemma op_err {A} S e : @only_panics A S (Err e). Proof. discriminate. Qed.
Lemma op_bind {A B} S (m : res A) (f : A -> res B) :
  only_panics S m -> (forall a, m = Ok a -> only_panics S (f a)) -> only_panics S (bind m f).
Proof.
  intros Hm Hf p. destruct m as [a|e|q]; cbn [bind]; [apply Hf; reflexivity|discriminate|].
  intros [= ->]. apply Hm. reflexivity.
Qed.
Lemma op_mapM {A B} S (f : A -> res B) l : (forall a, In a l -> only_panics S (f a)) -> only_panics S (mapM f l).
Proof.
  induction l as [|a l IH]; intros H; cbn [mapM]; [apply op_ok|].
  apply op_bind; [apply H; now left|]. intros b _. apply op_bind; [apply IH; intros; apply H; now right|].
  intros; apply op_ok.
Qed.
Lemma op_concatM {A B} S (f : A -> res (list B)) l :
  (forall a, In a l -> only_panics S (f a)) -> only_panics S (concatM f l).
Proof.
  induction l as [|a l IH]; intros H; cbn [concatM]; [apply op_ok|].
  apply op_bind; [apply H; now left|]. intros b _. apply op_bind; [apply IH; intros; apply H; now right|].
  intros; apply op_ok.
Qed.
Lemma op_ok_or {A} S (o : option A) e : only_panics S (ok_or o e).
Proof. destruct o; [apply op_ok|apply op_err]. Qed.

(** ** What derivation keeps *)
Lemma ma_derive_info {A} (name : A -> string) der x o :
  info (ma_derive name der x o) = der (info x) (info o).
Proof. destruct x as [a|a d], o as [b|b e]; cbn; try reflexivity. destruct (contains _ _); reflexivity. Qed.

Ltac bnd H x E := apply bind_ok in H as (x & E & H).

Section Derive.
  Variable ix : index.
  Lemma derive_peripheral_keeps fuel p dpath p' o : derive_peripheral ix fuel p dpath = Ok (p', o) ->
    p_derived_from (info p') = p_derived_from (info p) /\ p_name (info p') = p_name (info p).
  Proof.
    revert p dpath; induction fuel as [|k IH]; intros p dpath; cbn [derive_peripheral]; [discriminate|].
    destruct (seqb _ _); [discriminate|]. intros H. bnd H d E.
    destruct (p_derived_from (info d)) as [dp|] eqn:D.
    - apply IH in H. unfold peripheral_ma_derive in H. rewrite ma_derive_info in H. exact H.
    - injection H as <- _. unfold peripheral_ma_derive. rewrite ma_derive_info. auto.
  Qed.
  Lemma derive_cluster_keeps fuel c dpath path c' o : derive_cluster ix fuel c dpath path = Ok (c', o) ->
    c_derived_from (info c') = c_derived_from (info c) /\ c_name (info c') = c_name (info c) /\
    c_address_offset (info c') = c_address_offset (info c).
  Proof.
    revert c dpath path; induction fuel as [|k IH]; intros c dpath path; cbn [derive_cluster]; [discriminate|].
    intros H. bnd H q Hq. destruct (_ && _); [discriminate|]. bnd H d E.
    destruct (c_derived_from (info d)) as [dp|] eqn:D.
    - apply IH in H. unfold cluster_ma_derive in H. rewrite ma_derive_info in H. exact H.
    - injection H as <- _. unfold cluster_ma_derive. rewrite ma_derive_info. auto.
  Qed.
  Lemma derive_register_keeps fuel c dpath path c' o : derive_register ix fuel c dpath path = Ok (c', o) ->
    r_derived_from (info c') = r_derived_from (info c) /\ r_name (info c') = r_name (info c) /\
    r_address_offset (info c') = r_address_offset (info c).
  Proof.
    revert c dpath path; induction fuel as [|k IH]; intros c dpath path; cbn [derive_register]; [discriminate|].
    intros H. bnd H q Hq. destruct (_ && _); [discriminate|]. bnd H d E.
    destruct (r_derived_from (info d)) as [dp|] eqn:D.
    - apply IH in H. unfold register_ma_derive in H. rewrite ma_derive_info in H. exact H.
    - injection H as <- _. unfold register_ma_derive. rewrite ma_derive_info. auto.
  Qed.
  Lemma derive_field_keeps fuel c dpath path c' o : derive_field ix fuel c dpath path = Ok (c', o) ->
    f_derived_from (info c') = f_derived_from (info c) /\ f_name (info c') = f_name (info c) /\
    f_bit_range (info c') = f_bit_range (info c).
  Proof.
    revert c dpath path; induction fuel as [|k IH]; intros c dpath path; cbn [derive_field]; [discriminate|].
    intros H. bnd H q Hq. destruct (_ && _); [discriminate|]. bnd H d E.
    destruct (f_derived_from (info d)) as [dp|] eqn:D.
    - apply IH in H. unfold field_ma_derive in H. rewrite ma_derive_info in H. exact H.
    - injection H as <- _. unfold field_ma_derive. rewrite ma_derive_info. auto.
  Qed.
  Lemma derive_enum_keeps fuel e dpath path e' o : derive_enum ix fuel e dpath path = Ok (e', o) ->
    evs_derived_from e' = evs_derived_from e /\ evs_name e' = evs_name e.
  Proof.
    revert e dpath path; induction fuel as [|k IH]; intros e dpath path; cbn [derive_enum]; [discriminate|].
    destruct (is_name _ _); [discriminate|]. intros H. bnd H q Hq. bnd H found Ef.
    destruct found as [[d ep]|]; [|discriminate].
    destruct (evs_derived_from d) as [dp|] eqn:D.
    - apply IH in H. exact H.
    - injection H as <- _. auto.
  Qed.

  (** ** Flatness *)
  Variable m : mode.
  Lemma expand_enum_flat fuel fp e e' : expand_enum ix fuel fp e = Ok e' -> evs_derived_from e' = None.
  Proof.
    unfold expand_enum. destruct (evs_derived_from e) as [dp|] eqn:E; [|congruence].
    intros H. bnd H q Hq. destruct q as [e1 o]. injection H as <-. apply derive_enum_keeps in Hq. apply Hq.
  Qed.
  Lemma expand_field_flat fuel rp f l : expand_field m ix fuel rp f = Ok l -> Forall flat_field l.
  Proof.
    unfold expand_field. intros H. bnd H q Hq. bnd H evs Ev. destruct q as [f1 o]. cbn [fst snd] in *.
    assert (D : f_derived_from (info f1) = None).
    { destruct (f_derived_from (info f)) as [dp|] eqn:E.
      - apply derive_field_keeps in Hq. destruct Hq as [-> _]. destruct f; reflexivity.
      - injection Hq as <- _. exact E. }
    assert (V : Forall (fun e => evs_derived_from e = None) evs).
    { eapply mapM_forall; [|exact Ev]. intros a b _. apply expand_enum_flat. }
    destruct f1 as [i|i d]; cbn [ma_map info] in *.
    - injection H as <-. repeat constructor. exists (f_set_enums i evs). auto.
    - bnd H l1 E1. injection H as <-. apply mapM_ok in E1. apply Forall_forall. intros f2 I.
      apply in_map_iff in I as (i2 & <- & I). destruct (Forall2_in_r _ _ _ E1 _ I) as (n & _ & En).
      unfold field_instance in En. bnd En idx E2. bnd En off E3. injection En as <-.
      eexists. split; [reflexivity|]. cbn. auto.
  Qed.
  Lemma expand_register_flat fuel path r l :
    expand_register_array m ix fuel path r = Ok l -> Forall flat_child l.
  Proof.
    unfold expand_register_array. intros H. bnd H q Hq. bnd H r2 E2. destruct q as [r1 o]. cbn [fst snd] in *.
    assert (D : r_derived_from (info r1) = None).
    { destruct (r_derived_from (info r)) as [dp|] eqn:E.
      - apply derive_register_keeps in Hq. destruct Hq as [-> _]. destruct r; reflexivity.
      - injection Hq as <- _. exact E. }
    assert (K : r_derived_from (info r2) = None /\ forall fs, r_fields (info r2) = Some fs -> Forall flat_field fs).
    { destruct (r_fields (info r1)) as [fs|] eqn:Ef.
      - bnd E2 l1 E1. injection E2 as <-. destruct r1 as [i|i d]; cbn [ma_map info] in *.
        all: split; [exact D|]; cbn; intros fs' [= <-];
             eapply concatM_forall; [|exact E1]; intros a bs _; apply expand_field_flat.
      - injection E2 as <-. split; [exact D|]. congruence. }
    clear E2 Hq D. destruct K as [D K]. destruct r2 as [i|i d]; cbn [info] in *.
    - injection H as <-. repeat constructor. eexists. split; [reflexivity|]. exists i. auto.
    - bnd H l1 E1. injection H as <-. apply mapM_ok in E1. apply Forall_forall. intros f2 I.
      apply in_map_iff in I as (i2 & <- & I). destruct (Forall2_in_r _ _ _ E1 _ I) as (n & _ & En).
      unfold register_instance in En. bnd En idx E2. bnd En off E3. injection En as <-.
      eexists. split; [reflexivity|]. eexists. split; [reflexivity|]. cbn. auto.
  Qed.
  Lemma expand_cluster_flat c l : Forall flat_child (c_children c) -> expand_cluster m c = Ok l ->
    Forall flat_child l.
  Proof.
    intros F H. eapply mapM_forall; [|exact H]. intros rc b I E. rewrite Forall_forall in F.
    destruct (F rc I) as (r & -> & (i & -> & D & K)). bnd E off E1. injection E as <-.
    eexists. split; [reflexivity|]. eexists. split; [reflexivity|]. cbn. auto.
  Qed.
  Lemma expand_rc_flat fuel path rc l : expand_rc m ix fuel path rc = Ok l -> Forall flat_child l.
  Proof.
    revert path rc l; induction fuel as [|k IH]; intros path rc l; cbn [expand_rc]; [discriminate|].
    destruct rc as [r|c]; [apply expand_register_flat|]. intros H. bnd H q Hq. bnd H kids E2.
    assert (K : Forall flat_child kids).
    { eapply concatM_forall; [|exact E2]. intros a bs _. apply IH. }
    destruct q as [[i|i d] o]; cbn [ma_map fst] in H.
    - eapply expand_cluster_flat; [|exact H]. exact K.
    - eapply concatM_forall; [|exact H]. intros n bs _ E. bnd E x Ex.
      eapply expand_cluster_flat; [|exact E].
      unfold cluster_instance in Ex. bnd Ex idx E3. bnd Ex off E4. injection Ex as <-. exact K.
  Qed.
  Lemma expand_peripheral_flat fuel p l : expand_peripheral m ix fuel p = Ok l -> Forall flat_peripheral l.
  Proof.
    unfold expand_peripheral. intros H. bnd H q Hq. bnd H r2 E2. destruct q as [r1 o]. cbn [fst snd] in *.
    assert (D : p_derived_from (info r1) = None).
    { destruct (p_derived_from (info p)) as [dp|] eqn:E.
      - apply derive_peripheral_keeps in Hq. destruct Hq as [-> _]. destruct p; reflexivity.
      - injection Hq as <- _. exact E. }
    assert (K : p_derived_from (info r2) = None /\ forall fs, p_registers (info r2) = Some fs -> Forall flat_child fs).
    { destruct (p_registers (info r1)) as [fs|] eqn:Ef.
      - bnd E2 l1 E1. injection E2 as <-. destruct r1 as [i|i d]; cbn [ma_map info] in *.
        all: split; [exact D|]; cbn; intros fs' [= <-];
             eapply concatM_forall; [|exact E1]; intros a bs _; apply expand_rc_flat.
      - injection E2 as <-. split; [exact D|]. congruence. }
    clear E2 Hq D. destruct K as [D K]. destruct r2 as [i|i d]; cbn [info] in *.
    - injection H as <-. repeat constructor. eexists. split; [reflexivity|]. auto.
    - bnd H l1 E1. injection H as <-. apply mapM_ok in E1. apply Forall_forall. intros f2 I.
      apply in_map_iff in I as (i2 & <- & I). destruct (Forall2_in_r _ _ _ E1 _ I) as (n & _ & En).
      unfold peripheral_instance in En. bnd En idx E2. bnd En off E3. injection En as <-.
      eexists. split; [reflexivity|]. cbn. auto.
  Qed.
End Derive.
Lemma expand_flat m fuel d d' : expand m fuel d = Ok d' -> flat_device d'.
Proof.
  unfold expand. intros H. bnd H ix Ei. bnd H ps Ep. injection H as <-. unfold flat_device. cbn.
  eapply concatM_forall; [|exact Ep]. intros p l _. apply expand_peripheral_flat.
Qed.

(** ** Panics *)
Definition may_panic (m : mode) (p : panic) : Prop :=
  p = OutOfBounds \/ p = Unwrap \/ p = OutOfFuel \/ (p = Overflow /\ m = Debug).
Section Panics.
  Variable m : mode.
  Notation fine := (only_panics (may_panic m)).
  Lemma op_unwrap {A} (o : option A) : fine (unwrap o).
  Proof. destruct o; [apply op_ok|]. intros p [= <-]. right; left. reflexivity. Qed.
  Lemma op_fuel {A} : fine (@Panic A OutOfFuel).
  Proof. intros p [= <-]. right; right; left. reflexivity. Qed.
  Lemma op_add b x y : fine (add_w b m x y).
  Proof.
    unfold add_w. destruct (_ <? _); [apply op_ok|]. destruct m eqn:E; [|apply op_ok].
    intros p [= <-]. unfold may_panic. tauto.
  Qed.
  Lemma op_mul b x y : fine (mul_w b m x y).
  Proof.
    unfold mul_w. destruct (_ <? _); [apply op_ok|]. destruct m eqn:E; [|apply op_ok].
    intros p [= <-]. unfold may_panic. tauto.
  Qed.
  Lemma op_index_at d i : fine (index_at d i).
  Proof.
    unfold index_at. destruct (de_index d); [|apply op_ok]. unfold index_N. destruct (nth_N _ _); [apply op_ok|].
    intros p [= <-]. left. reflexivity.
  Qed.
  Lemma op_bp_parse_vec v : fine (bp_parse_vec v).
  Proof. unfold bp_parse_vec. apply op_bind; [apply op_unwrap|]. intros a _. destruct (fst a); apply op_ok. Qed.
  Lemma op_fp_parse_vec v : fine (fp_parse_vec v).
  Proof.
    unfold fp_parse_vec. apply op_bind; [apply op_unwrap|]. intros a _. destruct (is_nil _); [apply op_ok|].
    apply op_bind; [apply op_bp_parse_vec|]. intros b _. apply op_bind; [apply op_unwrap|]. intros; apply op_ok.
  Qed.
  Lemma op_offset_at b d i : fine (offset_at m b d i).
  Proof. unfold offset_at. apply op_bind; [apply op_mul|]. intros; apply op_add. Qed.
  Lemma op_base_at b d i : fine (base_at m b d i).
  Proof. unfold base_at. apply op_bind; [apply op_mul|]. intros; apply op_add. Qed.

  Lemma op_entry_names {A} (name : A -> string) x : fine (entry_names name x).
  Proof.
    unfold entry_names. apply op_bind; [|intros; apply op_ok]. destruct x; [apply op_ok|].
    apply op_mapM. intros i _. apply op_bind; [apply op_index_at|]. intros; apply op_ok.
  Qed.
  Lemma op_add_field rp f : fine (add_field rp f).
  Proof. unfold add_field. apply op_bind; [apply op_entry_names|]. intros; apply op_ok. Qed.
  Lemma op_add_register b r : fine (add_register b r).
  Proof.
    unfold add_register. apply op_bind; [apply op_entry_names|]. intros ns _. apply op_concatM. intros n _.
    unfold register_at. apply op_bind; [|intros; apply op_ok]. apply op_concatM. intros; apply op_add_field.
  Qed.
  Lemma op_add_rc rc : forall b, fine (add_rc b rc).
  Proof.
    induction rc as [r|c IH] using rc_tree_ind; intros b; cbn [add_rc]; [apply op_add_register|].
    rewrite Forall_forall in IH. apply op_bind; [apply op_entry_names|]. intros ns _. apply op_concatM. intros n _.
    apply op_bind.
    - apply op_concatM. intros [r|c'] I; [apply IH, I|apply op_ok].
    - intros rs _. apply op_bind; [|intros; apply op_ok].
      apply op_concatM. intros [r|c'] I; [apply op_ok|apply IH, I].
  Qed.
  Lemma op_index d : fine (index_create d).
  Proof.
    unfold index_create. apply op_concatM. intros p _. unfold add_peripheral.
    apply op_bind; [apply op_entry_names|]. intros ns _. apply op_concatM. intros n _.
    apply op_bind; [apply op_concatM; intros; apply op_add_register|]. intros rs _.
    apply op_bind; [apply op_concatM; intros; apply op_add_rc|]. intros; apply op_ok.
  Qed.

  Variable ix : index.
  Lemma op_derive_peripheral fuel p dp : fine (derive_peripheral ix fuel p dp).
  Proof.
    revert p dp; induction fuel as [|k IH]; intros p dp; cbn [derive_peripheral]; [apply op_fuel|].
    destruct (seqb _ _); [apply op_err|]. apply op_bind; [apply op_ok_or|]. intros d _.
    destruct (p_derived_from _); [apply IH|apply op_ok].
  Qed.
  Lemma op_derive_cluster fuel p dp b : fine (derive_cluster ix fuel p dp b).
  Proof.
    revert p dp b; induction fuel as [|k IH]; intros p dp b; cbn [derive_cluster]; [apply op_fuel|].
    apply op_bind; [apply op_bp_parse_vec|]. intros q _.
    destruct (_ && _); [apply op_err|]. apply op_bind; [apply op_ok_or|]. intros d _.
    destruct (c_derived_from _); [apply IH|apply op_ok].
  Qed.
  Lemma op_derive_register fuel p dp b : fine (derive_register ix fuel p dp b).
  Proof.
    revert p dp b; induction fuel as [|k IH]; intros p dp b; cbn [derive_register]; [apply op_fuel|].
    apply op_bind; [apply op_bp_parse_vec|]. intros q _.
    destruct (_ && _); [apply op_err|]. apply op_bind; [apply op_ok_or|]. intros d _.
    destruct (r_derived_from _); [apply IH|apply op_ok].
  Qed.
  Lemma op_derive_field fuel p dp b : fine (derive_field ix fuel p dp b).
  Proof.
    revert p dp b; induction fuel as [|k IH]; intros p dp b; cbn [derive_field]; [apply op_fuel|].
    apply op_bind; [apply op_fp_parse_vec|]. intros q _.
    destruct (_ && _); [apply op_err|]. apply op_bind; [apply op_ok_or|]. intros d _.
    destruct (f_derived_from _); [apply IH|apply op_ok].
  Qed.
  Lemma op_derive_enum fuel p dp b : fine (derive_enum ix fuel p dp b).
  Proof.
    revert p dp b; induction fuel as [|k IH]; intros p dp b; cbn [derive_enum]; [apply op_fuel|].
    destruct (is_name _ _); [apply op_err|].
    apply op_bind; [apply op_unwrap|]. intros q _. apply op_bind.
    - destruct (pop (fst q)) as [[v fd]|]; [|apply op_ok]. apply op_bind.
      + destruct (is_nil v); [apply op_ok|]. apply op_bind; [apply op_bp_parse_vec|]. intros; apply op_ok.
      + intros fp _. destruct (_ && _); [apply op_err|apply op_ok].
    - intros [[d ep]|] _; [|apply op_err]. destruct (evs_derived_from d); [apply IH|apply op_ok].
  Qed.
  Lemma op_expand_enum fuel fp e : fine (expand_enum ix fuel fp e).
  Proof.
    unfold expand_enum. destruct (evs_derived_from e); [|apply op_ok].
    apply op_bind; [apply op_derive_enum|]. intros; apply op_ok.
  Qed.
  Lemma op_expand_field fuel rp f : fine (expand_field m ix fuel rp f).
  Proof.
    unfold expand_field. apply op_bind; [destruct (f_derived_from _); [apply op_derive_field|apply op_ok]|].
    intros q _. apply op_bind; [apply op_mapM; intros; apply op_expand_enum|]. intros evs _.
    destruct (ma_map _ _); [apply op_ok|]. apply op_bind; [|intros; apply op_ok].
    apply op_mapM. intros i _. unfold field_instance. apply op_bind; [apply op_index_at|]. intros idx _.
    apply op_bind; [apply op_offset_at|]. intros; apply op_ok.
  Qed.
  Lemma op_expand_register fuel b r : fine (expand_register_array m ix fuel b r).
  Proof.
    unfold expand_register_array. apply op_bind; [destruct (r_derived_from _); [apply op_derive_register|apply op_ok]|].
    intros q _. apply op_bind.
    - destruct (r_fields _); [|apply op_ok]. apply op_bind; [apply op_concatM; intros; apply op_expand_field|].
      intros; apply op_ok.
    - intros r1 _. destruct r1; [apply op_ok|]. apply op_bind; [|intros; apply op_ok].
      apply op_mapM. intros i _. unfold register_instance. apply op_bind; [apply op_index_at|]. intros idx _.
      apply op_bind; [apply op_offset_at|]. intros; apply op_ok.
  Qed.
  Lemma op_expand_cluster c : Forall flat_child (c_children c) -> fine (expand_cluster m c).
  Proof.
    intros F. rewrite Forall_forall in F. apply op_mapM. intros rc I. destruct (F rc I) as (r & -> & _).
    apply op_bind; [apply op_add|]. intros; apply op_ok.
  Qed.
  Lemma op_expand_rc fuel : forall b rc, fine (expand_rc m ix fuel b rc).
  Proof.
    induction fuel as [|k IH]; intros b rc; cbn [expand_rc]; [apply op_fuel|].
    destruct rc as [r|c]; [apply op_expand_register|].
    apply op_bind; [destruct (c_derived_from _); [apply op_derive_cluster|apply op_ok]|].
    intros q _. apply op_bind; [apply op_concatM; intros; apply IH|]. intros kids Ek.
    assert (F : Forall flat_child kids) by (eapply concatM_forall; [|exact Ek]; intros a bs _; apply expand_rc_flat).
    destruct (fst q) as [i|i d]; cbn [ma_map]; [apply op_expand_cluster; exact F|].
    apply op_concatM. intros n _. unfold cluster_instance. apply op_bind.
    - apply op_bind; [apply op_index_at|]. intros idx _.
      apply op_bind; [apply op_offset_at|]. intros; apply op_ok.
    - intros x Ex. bnd Ex idx E1. bnd Ex off E2. injection Ex as <-. apply op_expand_cluster. exact F.
  Qed.
  Lemma op_expand_peripheral fuel p : fine (expand_peripheral m ix fuel p).
  Proof.
    unfold expand_peripheral. apply op_bind; [destruct (p_derived_from _); [apply op_derive_peripheral|apply op_ok]|].
    intros q _. apply op_bind.
    - destruct (p_registers _); [|apply op_ok]. apply op_bind; [apply op_concatM; intros; apply op_expand_rc|].
      intros; apply op_ok.
    - intros r1 _. destruct r1; [apply op_ok|]. apply op_bind; [|intros; apply op_ok].
      apply op_mapM. intros i _. unfold peripheral_instance. apply op_bind; [apply op_index_at|]. intros idx _.
      apply op_bind; [apply op_base_at|]. intros; apply op_ok.
  Qed.
End Panics.
Lemma expand_panics m fuel d : only_panics (may_panic m) (expand m fuel d).
Proof.
  unfold expand. apply op_bind; [apply op_index|]. intros ix _.
  apply op_bind; [apply op_concatM; intros; apply op_expand_peripheral|]. intros; apply op_ok.
Qed.
Lemma expand_reachable m fuel d : expand m fuel d <> Panic Unreachable.
Proof.
  intros H. destruct (expand_panics m fuel d _ H) as [|[|[|[]]]]; discriminate.
Qed.

(** ** Flat devices expand to themselves *)
Lemma concatM_singles {A} (f : A -> res (list A)) l : (forall a, In a l -> f a = Ok [a]) -> concatM f l = Ok l.
Proof.
  induction l as [|a l IH]; intros H; cbn [concatM]; [reflexivity|].
  rewrite (H a (or_introl eq_refl)), IH by (intros; apply H; now right). reflexivity.
Qed.
Lemma concatM_pure {A B} (f : A -> res (list B)) (g : A -> list B) l :
  (forall a, In a l -> f a = Ok (g a)) -> concatM f l = Ok (flat_map g l).
Proof.
  induction l as [|a l IH]; intros H; cbn [concatM flat_map]; [reflexivity|].
  rewrite (H a (or_introl eq_refl)), IH by (intros; apply H; now right). reflexivity.
Qed.
Lemma concatM_exists {A B} (f : A -> res (list B)) l :
  (forall a, In a l -> exists b, f a = Ok b) -> exists bs, concatM f l = Ok bs.
Proof.
  induction l as [|a l IH]; intros H; cbn [concatM]; [eauto|].
  destruct (H a (or_introl eq_refl)) as [b ->]. destruct IH as [bs ->]; [intros; apply H; now right|].
  cbn. eauto.
Qed.

Lemma index_flat d : flat_device d -> exists ix, index_create d = Ok ix.
Proof.
  intros F. unfold flat_device in F. rewrite Forall_forall in F. apply concatM_exists. intros p I.
  destruct (F p I) as (i & -> & _ & K). unfold add_peripheral, entry_names. cbn [bind app info concatM].
  assert (R : exists rs, concatM (add_register (bp_new (p_name i))) (rc_registers (p_children i)) = Ok rs).
  { apply concatM_exists. intros r Ir. apply in_rc_registers in Ir. unfold p_children in Ir.
    destruct (p_registers i) as [rs|]; [|destruct Ir]. cbn in Ir.
    specialize (K rs eq_refl). rewrite Forall_forall in K.
    destruct (K _ Ir) as (r' & [= <-] & (j & -> & _ & Kf)).
    unfold add_register, entry_names. cbn [bind app info concatM]. unfold register_at.
    assert (E : exists fs, concatM (add_field (new_register (bp_new (p_name i)) (r_name j))) (r_fields_iter j) = Ok fs).
    { apply concatM_exists. intros f If. unfold r_fields_iter in If.
      destruct (r_fields j) as [fs|]; [|destruct If]. specialize (Kf fs eq_refl). rewrite Forall_forall in Kf.
      destruct (Kf f If) as (k & -> & _). unfold add_field, entry_names. cbn. eauto. }
    cbn [info]. destruct E as [fs ->]. cbn. eauto. }
  destruct R as [rs ->]. cbn [bind].
  replace (rc_clusters (p_children i)) with (@nil cluster); [cbn; eauto|].
  symmetry. destruct (rc_clusters (p_children i)) as [|c cs] eqn:E; [reflexivity|].
  assert (Ic : In (RCCluster c) (p_children i)) by (apply in_rc_clusters; rewrite E; now left).
  unfold p_children in Ic. destruct (p_registers i) as [rs'|]; [|destruct Ic].
  specialize (K _ eq_refl). rewrite Forall_forall in K. destruct (K _ Ic) as (r' & [=] & _).
Qed.

Section Flat.
  Variables (m : mode) (ix : index) (fuel : nat).
  Lemma expand_field_id rp f : flat_field f -> expand_field m ix fuel rp f = Ok [f].
  Proof.
    intros (i & -> & D & V). unfold expand_field. cbn [info]. rewrite D. cbn [bind fst snd info].
    assert (E : forall fp, mapM (expand_enum ix fuel fp) (f_enumerated_values i) = Ok (f_enumerated_values i)).
    { intros fp. rewrite (mapM_all_ok _ (fun e => e)); [now rewrite map_id|]. intros e I.
      rewrite Forall_forall in V. unfold expand_enum. now rewrite (V e I). }
    rewrite E. cbn [bind ma_map]. destruct i; reflexivity.
  Qed.
  Lemma expand_register_id b r : flat_register r -> expand_register_array m ix fuel b r = Ok [RCRegister r].
  Proof.
    intros (i & -> & D & K). unfold expand_register_array. cbn [info]. rewrite D. cbn [bind fst snd info].
    destruct (r_fields i) as [fs|] eqn:E; [|reflexivity].
    rewrite concatM_singles.
    - cbn [bind ma_map]. unfold r_set_fields, r_with. destruct i; cbn in *; subst; reflexivity.
    - intros f I. apply expand_field_id. specialize (K fs eq_refl). rewrite Forall_forall in K. auto.
  Qed.
  Lemma expand_rc_id b rc : flat_child rc -> expand_rc m ix (S fuel) b rc = Ok [rc].
  Proof. intros (r & -> & F). cbn [expand_rc]. now apply expand_register_id. Qed.
End Flat.
Lemma expand_peripheral_id m ix fuel p : flat_peripheral p -> expand_peripheral m ix (S fuel) p = Ok [p].
Proof.
  intros (i & -> & D & K). unfold expand_peripheral. cbn [info]. rewrite D. cbn [bind fst snd info].
  destruct (p_registers i) as [fs|] eqn:E; [|reflexivity].
  rewrite concatM_singles.
  - cbn [bind ma_map]. unfold p_with. destruct i; cbn in *; subst; reflexivity.
  - intros f I. apply expand_rc_id. specialize (K fs eq_refl). rewrite Forall_forall in K. auto.
Qed.
Lemma d_set_same d : d_set_peripherals d (d_peripherals d) = d.
Proof. destruct d; reflexivity. Qed.
Lemma expand_id m fuel d : flat_device d -> expand m (S fuel) d = Ok d.
Proof.
  intros F. destruct (index_flat d F) as [ix E]. unfold expand. rewrite E. cbn [bind].
  unfold flat_device in F. rewrite Forall_forall in F.
  rewrite concatM_singles by (intros p I; apply expand_peripheral_id, F, I).
  cbn [bind]. now rewrite d_set_same.
Qed.
Lemma expand_idempotent m m' fuel fuel' d d' :
  expand m fuel d = Ok d' -> expand m' (S fuel') d' = Ok d'.
Proof. intros H. apply expand_id. now apply expand_flat in H. Qed.
