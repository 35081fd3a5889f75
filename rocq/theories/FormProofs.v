(** C76: the layout of written serde forms. *)
From Verif Require Import BaseFacts Types TreeFacts Arrays Serde SpecRead SpecOrder SpecKeys.

Lemma keys_app fs es : laid_keys fs es -> forall fs' es', laid_keys fs' es' -> laid_keys (fs ++ fs') (es ++ es').
Proof. induction 1; intros fs' es' K; cbn [app]; [exact K|apply lk_once|apply lk_absent|apply lk_present]; auto. Qed.
Lemma must_put k s v : laid s v -> laid_keys (must k s) [(k, v)].
Proof. intros H. apply lk_once; [exact H|constructor]. Qed.
Lemma must_cons k s v fs es : laid s v -> laid_keys fs es -> laid_keys (must k s ++ fs) ((k, v) :: es).
Proof. intros H K. now apply lk_once. Qed.
Lemma may_put {A} k s (f : A -> data) o : (forall x, laid s (f x)) -> laid_keys (may k s) (put_opt k f o).
Proof. intros H. destruct o; [apply lk_present; [apply H|constructor]|apply lk_absent; constructor]. Qed.
Lemma may_some k s f o : (forall x, o = Some x -> Forall (laid s) x) -> f = DSeq -> laid_keys (may k (ListOf s)) (put_opt k f o).
Proof. intros H ->. destruct o; [apply lk_present; [constructor; now apply H|constructor]|apply lk_absent; constructor]. Qed.
Lemma may_list {A} k s (f : A -> data) l : (forall x, laid s (f x)) -> laid_keys (may k (SomeOf s)) (put_list k f l).
Proof.
  intros H. unfold put_list. destruct l as [|x l]; [apply lk_absent; constructor|]. apply lk_present; [|constructor].
  constructor; [discriminate|]. apply Forall_forall. intros v I. apply in_map_iff in I as (y & <- & _). apply H.
Qed.
Lemma list_laid {A} s (f : A -> data) l : (forall x, laid s (f x)) -> laid (ListOf s) (DSeq (map f l)).
Proof. intros H. constructor. apply Forall_forall. intros v I. apply in_map_iff in I as (y & <- & _). apply H. Qed.
Lemma mapM_laid {A} s (f : A -> res data) l : forall r, mapM f l = Ok r -> (forall x v, In x l -> f x = Ok v -> laid s v) -> Forall (laid s) r.
Proof.
  induction l as [|x l IH]; cbn; intros r H K; [injection H as <-; constructor|].
  apply bind_ok in H as (v & E & H). apply bind_ok in H as (r' & E' & H). injection H as <-. constructor; [now apply (K x); [left|]|]. apply IH; eauto.
Qed.
Ltac a_row := unfold layouts, field_keys, single_or_array; cbn [app]; repeat (first [left; reflexivity|right]).
Ltac plain := intros; constructor.
Ltac ks1 := first
  [ apply must_put; solve [plain|auto]
  | apply may_put; solve [plain|auto]
  | apply may_list; solve [auto] ].
Ltac ks := repeat first
  [ solve [ks1]
  | apply must_cons; [solve [plain|auto]|]
  | apply keys_app; [solve [ks1]|] ].
Lemma word_put {A} (ws : list (string * A)) s x : In (s, x) ws -> laid (a_word ws) (DStr s).
Proof. intros H. constructor. change s with (fst (s, x)). exact (List.in_map fst ws (s, x) H). Qed.
Lemma laid_access a : laid (a_word access_words) (put_access a). Proof. apply word_put with a. destruct a; cbn; tauto. Qed.
Lemma laid_usage a : laid (a_word usage_words) (put_usage a). Proof. apply word_put with a. destruct a; cbn; tauto. Qed.
Lemma laid_protection a : laid (a_word protection_words) (put_protection a). Proof. apply word_put with a. destruct a; cbn; tauto. Qed.
Lemma laid_mwv a : laid (a_word effect_words) (put_mwv a). Proof. apply word_put with a. destruct a; cbn; tauto. Qed.
Lemma laid_action a : laid (a_word action_words) (put_read_action a). Proof. apply word_put with a. destruct a; cbn; tauto. Qed.
Lemma laid_endian a : laid (a_word endian_words) (put_endian a). Proof. apply word_put with a. destruct a; cbn; tauto. Qed.
Lemma laid_block a : laid (a_word block_words) (put_ab_usage a). Proof. apply word_put with a. destruct a; cbn; tauto. Qed.
Lemma laid_type a : laid (a_word type_names) (put_data_type a). Proof. apply word_put with a. destruct a; cbn; tauto. Qed.
#[local] Hint Resolve laid_access laid_usage laid_protection laid_mwv laid_action laid_endian laid_block laid_type : core.

Lemma props_keys p : laid_keys property_keys (rp_put p).
Proof. unfold property_keys, rp_put. ks. Qed.
Lemma laid_value e : laid (AMap "enumeratedValue") (ev_put e).
Proof. eapply la_map with (fs := must "name" AText ++ may "description" AText ++ may "value" ANumber ++ may "is_default" AFlag); [a_row|]. ks. Qed.
#[local] Hint Resolve laid_value : core.
Lemma laid_values e : laid (AMap "enumeratedValues") (evs_put e).
Proof.
  apply la_map with (may "name" AText ++ may "usage" (a_word usage_words) ++ may "derived_from" AText ++ may "values" (SomeOf (AMap "enumeratedValue"))); [a_row|].
  ks.
Qed.
Lemma laid_constraint w : laid (AMap "writeConstraint") (wc_put w).
Proof.
  destruct w as [b|b|lo hi]; (eapply la_map; [|apply must_put]); [a_row|constructor|a_row|constructor|a_row|].
  apply la_map with (must "minimum" ANumber ++ must "maximum" ANumber); [a_row|]. ks.
Qed.
Lemma laid_array_index d : laid (AMap "dimArrayIndex") (dai_put d).
Proof.
  apply la_map with (may "headerEnumName" AText ++ must "values" (ListOf (AMap "enumeratedValue"))); [a_row|]. ks. apply must_put. now apply list_laid.
Qed.
#[local] Hint Resolve laid_values laid_constraint laid_array_index : core.
Lemma dim_keys d : laid_keys dimension_keys (de_put d).
Proof. unfold dimension_keys, de_put. cbn [app]. ks. Qed.
Lemma array_laid {A} t fs (put : A -> res entries) x v :
  In (t, fs) layouts -> In (t, dimension_keys ++ fs) layouts -> (forall es, put (info x) = Ok es -> laid_keys fs es) ->
  ma_put put x = Ok v -> laid (AMap t) v.
Proof.
  intros I1 I2 H. destruct x as [i|i d]; cbn; intros E; apply bind_ok in E as (es & F & E); injection E as <-.
  - now apply la_map with fs; auto.
  - apply la_map with (dimension_keys ++ fs); [exact I2|]. exact (keys_app _ _ (dim_keys d) _ _ (H _ F)).
Qed.
Definition bits_layouts : list map_layout :=
  [must "bitRange" AText; must "lsb" ANumber ++ must "msb" ANumber; must "bitOffset" ANumber ++ must "bitWidth" ANumber].
Lemma bits_keys m b es : br_put m b = Ok es -> exists fs, In fs bits_layouts /\ laid_keys fs es.
Proof.
  unfold br_put. destruct (br_type b); intros H.
  - apply bind_ok in H as (t & _ & H). injection H as <-. exists (must "bitRange" AText). split; [cbn; tauto|]. ks.
  - injection H as <-. exists (must "bitOffset" ANumber ++ must "bitWidth" ANumber). split; [cbn; tauto|]. ks.
  - apply bind_ok in H as (h & _ & H). injection H as <-. exists (must "lsb" ANumber ++ must "msb" ANumber). split; [cbn; tauto|]. ks.
Qed.
Definition field_layout (bits : map_layout) : map_layout :=
  must "name" AText ++ may "description" AText ++ bits ++ may "access" (a_word access_words) ++
     may "modifiedWriteValues" (a_word effect_words) ++ may "writeConstraint" (AMap "writeConstraint") ++
     may "readAction" (a_word action_words) ++ may "enumeratedValues" (SomeOf (AMap "enumeratedValues")) ++ may "derivedFrom" AText.
Lemma field_layouts fs : In fs bits_layouts -> In ("field"%string, field_layout fs) layouts /\ In ("field"%string, dimension_keys ++ field_layout fs) layouts.
Proof. intros [<-|[<-|[<-|[]]]]; split; a_row. Qed.
Lemma field_laid m f v : ma_put (field_put m) f = Ok v -> laid (AMap "field") v.
Proof.
  intros H. assert (B : exists bs, br_put m (f_bit_range (info f)) = Ok bs).
  { destruct f as [i|i d]; cbn in *; apply bind_ok in H as (es & F & _); apply bind_ok in F as (bs & B & _); eauto. }
  destruct B as [bs B]. destruct (bits_keys _ _ _ B) as (fs & I & K). destruct (field_layouts fs I) as [I1 I2].
  eapply array_laid; [exact I1|exact I2| |exact H]. intros es E. unfold field_put in E. rewrite B in E. cbn [bind] in E. injection E as <-.
  unfold field_layout. ks. apply keys_app; [exact K|]. ks.
Qed.
Lemma register_keys m r es : register_put m r = Ok es -> laid_keys
  (must "name" AText ++ may "displayName" AText ++ may "description" AText ++ may "alternateGroup" AText ++
        may "alternateRegister" AText ++ must "addressOffset" ANumber ++ property_keys ++ may "datatype" (a_word type_names) ++
        may "modifiedWriteValues" (a_word effect_words) ++ may "writeConstraint" (AMap "writeConstraint") ++
        may "readAction" (a_word action_words) ++ may "fields" (ListOf (AMap "field")) ++ may "derivedFrom" AText) es.
Proof.
  unfold register_put. intros H. apply bind_ok in H as (fs & F & H). injection H as <-. ks. apply keys_app; [apply props_keys|]. ks.
  apply keys_app; [|ks]. apply may_some; [|reflexivity]. intros x ->. destruct (r_fields r) as [l|]; cbn in F; [|discriminate].
  apply bind_ok in F as (vs & F & G). injection G as ->. eapply mapM_laid; [exact F|]. intros y v _. apply field_laid.
Qed.
Lemma block_laid m rc : forall v, rc_put m rc = Ok v -> laid (AMap "block") v.
Proof.
  induction rc as [r|c IH] using rc_tree_ind; intros v H; cbn [rc_put] in H; apply bind_ok in H as (w & E & H); injection H as <-.
  - eapply la_map; [|apply must_put]; [a_row|]. eapply array_laid; [| |intros es; apply register_keys|exact E]; a_row.
  - eapply la_map; [|apply must_put]; [a_row|].
    apply (array_laid "cluster" (must "name" AText ++ may "description" AText ++ may "alternateCluster" AText ++ may "headerStructName" AText ++
        must "addressOffset" ANumber ++ property_keys ++ must "children" (ListOf (AMap "block")) ++ may "derivedFrom" AText)) in E; [exact E|a_row|a_row|].
    intros es F. unfold cluster_put in F. apply bind_ok in F as (kids & K & F). injection F as <-. ks. apply keys_app; [apply props_keys|].
    apply must_cons; [|ks]. constructor. eapply mapM_laid; [exact K|]. intros x u I. rewrite Forall_forall in IH. now apply IH.
Qed.
Lemma address_block_laid a : laid (AMap "addressBlock") (ab_put a).
Proof.
  apply la_map with (must "offset" ANumber ++ must "size" ANumber ++ must "usage" (a_word block_words) ++ may "protection" (a_word protection_words)); [a_row|].
  cbn [app]. ks.
Qed.
Lemma interrupt_laid i : laid (AMap "interrupt") (it_put i).
Proof. apply la_map with (must "name" AText ++ may "description" AText ++ must "value" ANumber); [a_row|]. ks. Qed.
Lemma cpu_laid c : laid (AMap "cpu") (cpu_put c).
Proof. eapply la_map; [right; left; reflexivity|]. cbn [app]. ks. Qed.
#[local] Hint Resolve address_block_laid interrupt_laid cpu_laid : core.
Lemma peripheral_laid m p v : ma_put (peripheral_put m) p = Ok v -> laid (AMap "peripheral") v.
Proof.
  apply (array_laid "peripheral" (must "name" AText ++ may "displayName" AText ++ may "version" AText ++ may "description" AText ++
        may "alternatePeripheral" AText ++ may "groupName" AText ++ may "prependToName" AText ++ may "appendToName" AText ++
        may "headerStructName" AText ++ must "baseAddress" ANumber ++ property_keys ++
        may "addressBlock" (ListOf (AMap "addressBlock")) ++ may "interrupt" (SomeOf (AMap "interrupt")) ++
        may "registers" (ListOf (AMap "block")) ++ may "derivedFrom" AText)); [a_row|a_row|].
  intros es H. unfold peripheral_put in H. apply bind_ok in H as (rs & F & H). injection H as <-. ks. apply keys_app; [apply props_keys|].
  apply keys_app; [apply may_put; intros x; now apply list_laid|]. ks. apply keys_app; [|ks]. apply may_some; [|reflexivity]. intros x ->.
  destruct (p_registers (info p)) as [l|]; cbn in F; [|discriminate].
  apply bind_ok in F as (vs & F & G). injection G as ->. eapply mapM_laid; [exact F|]. intros y u _. apply block_laid.
Qed.
Theorem device_laid m d v : device_put m d = Ok v -> laid (AMap "device") v.
Proof.
  unfold device_put. intros H. apply bind_ok in H as (ps & F & H). injection H as <-. eapply la_map; [left; reflexivity|]. cbn [app]. ks.
  apply keys_app; [apply props_keys|]. apply must_put. constructor. eapply mapM_laid; [exact F|]. intros y v _. apply peripheral_laid.
Qed.
