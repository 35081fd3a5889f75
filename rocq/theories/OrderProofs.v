(** C74: what the encoder writes is in the order of the format. *)
From Verif Require Import TreeFacts BaseFacts Num Types Arrays Config Sort Xml Encode ParseProofs RoundProofs SpecOrder.

Lemma follows_app s l : follows s l -> forall s' l', follows s' l' -> follows (s ++ s') (l ++ l').
Proof.
  induction 1; intros s' l' F; cbn [app].
  - exact F.
  - apply fo_once; auto.
  - apply fo_absent; auto.
  - apply fo_present; auto.
  - apply fo_no_more; auto.
  - apply fo_more; auto. now apply IHfollows.
  - apply fo_first; auto. now apply IHfollows.
Qed.
(** [l] is in order and its names are as in [s]. *)
Definition runs (s : content_model) (l : list xml) : Prop := follows s (map name_of l) /\ Forall in_order l.
Lemma runs_app s s' l l' : runs s l -> runs s' l' -> runs (s ++ s') (l ++ l').
Proof.
  intros [F G] [F' G']. split; [rewrite map_app; now apply follows_app|]. apply Forall_app; auto.
Qed.
Lemma runs_one t n : name_of n = t -> in_order n -> runs (one t) [n].
Proof. intros <- H. split; [|repeat constructor; assumption]. apply fo_once; [now left|constructor]. Qed.
Lemma runs_opt {A} t (f : A -> xml) o : (forall x, name_of (f x) = t) -> (forall x, in_order (f x)) -> runs (opt t) (opt_node f o).
Proof.
  intros N H. destruct o as [x|]; cbn.
  - split; [|repeat constructor; auto]. apply fo_present; [rewrite N; now left|constructor].
  - split; [apply fo_absent; constructor|constructor].
Qed.
Lemma runs_often ts l : Forall (fun n => In (name_of n) ts /\ in_order n) l -> runs [(ts, Often)] l.
Proof.
  induction 1 as [|n l [I O] F IH].
  - split; [apply fo_no_more; constructor|constructor].
  - destruct IH as [G K]. split; [apply fo_more; auto|constructor; auto].
Qed.
Lemma runs_some ts l : l <> [] -> Forall (fun n => In (name_of n) ts /\ in_order n) l -> runs [(ts, OnceOrMore)] l.
Proof.
  intros N F. destruct F as [|n l [I O] F]; [congruence|]. apply runs_often in F as [G K].
  split; [apply fo_first; auto|constructor; auto].
Qed.
Lemma runs_map {A} ts (f : A -> xml) l : (forall x, In (name_of (f x)) ts /\ in_order (f x)) -> runs [(ts, Often)] (map f l).
Proof. intros H. apply runs_often. apply Forall_forall. intros n I. apply in_map_iff in I as (x & <- & _). apply H. Qed.
Lemma runs_cons t s n l : name_of n = t -> in_order n -> runs s l -> runs (one t ++ s) (n :: l).
Proof. intros N H R. change (n :: l) with ([n] ++ l). apply runs_app; [now apply runs_one|exact R]. Qed.
Lemma runs_elem t a s l : In (t, s) contents -> attributes_of t a -> runs s l -> in_order (Elem t a l).
Proof. intros I A [F G]. now apply io_elem with s. Qed.

Ltac find_in := cbn; repeat (first [left; reflexivity | right]).
Ltac not_in := cbn; let H := fresh in intros H; repeat (destruct H as [H|H]; [discriminate|]); contradiction.
Lemma plain_text k s : ~ In k (map fst contents) -> in_order (new_node k s).
Proof. apply io_text. Qed.
Ltac texts := unfold num_node, dec_node, bool_node, access_encode, usage_encode, data_type_encode, mwv_encode, read_action_encode,
  protection_encode, endian_encode, ab_usage_encode; apply plain_text; not_in.
Ltac run1 := first
  [ apply runs_opt; [reflexivity|intros; solve [texts|auto]]
  | apply runs_one; [reflexivity|solve [texts|auto]] ].
(** A sequence of single children *)
Ltac runs_tac := repeat first
  [ solve [run1]
  | apply runs_cons; [reflexivity|solve [texts|auto]|]
  | apply runs_app; [solve [run1]|] ].
Lemma plain_attributes t : t <> "device"%string -> attributes_of t [].
Proof. right; right. auto. Qed.
Lemma derived_attributes t f o : In t ["peripheral"; "cluster"; "register"; "field"; "enumeratedValues"]%string ->
  attributes_of t (derived_attr f o).
Proof.
  intros I. destruct o as [s|]; cbn; [right; left; auto|]. apply plain_attributes. intros ->. cbn in I.
  repeat (destruct I as [I|I]; [discriminate|]). contradiction.
Qed.

Section Order.
  Variable m : mode.
  Variable conv : id_format -> string -> string.
  Variable cfg : config.

  Lemma props_run p : runs properties (rp_encode cfg p).
  Proof. unfold properties, rp_encode. runs_tac. Qed.
  Lemma constraint_order w : in_order (wc_encode w).
  Proof.
    assert (I : In ("writeConstraint", [(["writeAsRead"; "useEnumeratedValues"; "range"], Once)])%string contents) by find_in.
    eapply runs_elem; [exact I|now apply plain_attributes|].
    assert (G : forall n, In (name_of n) ["writeAsRead"; "useEnumeratedValues"; "range"]%string -> in_order n ->
      runs [(["writeAsRead"; "useEnumeratedValues"; "range"], Once)]%string [n])
      by (intros n A B; split; [apply fo_once; [exact A|constructor]|repeat constructor; assumption]).
    apply G; [destruct w; cbn; tauto|]. destruct w; try texts.
    eapply runs_elem with (s := one "minimum" ++ one "maximum"); [find_in|now apply plain_attributes|].
    runs_tac.
  Qed.
  Lemma value_order e : in_order (ev_encode conv cfg e).
  Proof.
    eapply runs_elem with (s := one "name" ++ opt "description" ++ opt "value" ++ opt "isDefault"); [find_in|now apply plain_attributes|].
    runs_tac.
  Qed.
  Lemma values_order e : in_order (evs_encode conv cfg e).
  Proof.
    eapply runs_elem with (s := opt "name" ++ opt "usage" ++ [(["enumeratedValue"], Often)]%string); [find_in| |].
    - apply derived_attributes. cbn. tauto.
    - runs_tac. apply runs_map. intros x. split; [now left|apply value_order].
  Qed.
  Lemma array_index_order d : in_order (dai_encode conv cfg d).
  Proof.
    eapply runs_elem with (s := opt "headerEnumName" ++ [(["enumeratedValue"], Often)]%string); [find_in|now apply plain_attributes|].
    runs_tac. apply runs_map. intros x. split; [now left|apply value_order].
  Qed.
  Lemma dim_run d n : de_encode m conv cfg d = Ok n -> exists l, n = Elem "dimElement" [] l /\ runs dimensions l.
  Proof.
    unfold de_encode. intros H. apply bind_ok in H as (ix & E & H). injection H as <-. eexists. split; [reflexivity|].
    assert (R : runs (opt "dimIndex") ix).
    { destruct (de_index d) as [is|]; [|injection E as <-; split; [apply fo_absent|]; constructor].
      apply bind_ok in E as (r & _ & E). injection E as <-. apply (runs_opt "dimIndex" (new_node "dimIndex") (Some _)); intros; [reflexivity|texts]. }
    unfold dimensions. cbn [app].
    runs_tac. apply runs_app; [exact R|]. runs_tac. apply runs_opt; [reflexivity|apply array_index_order].
  Qed.
  (** [f] writes elements [t] whose children run as in [s]. *)
  Definition writes {A} (t : string) (s : content_model) (f : A -> res xml) (x : A) : Prop :=
    forall n, f x = Ok n -> exists a l, n = Elem t a l /\ runs s l /\ (exists g o, a = derived_attr g o).
  Lemma array_order {A} t s (f : A -> res xml) x n : In t ["peripheral"; "cluster"; "register"; "field"; "enumeratedValues"]%string ->
    In (t, s) contents -> In (t, dimensions ++ s) contents -> writes t s f (info x) -> ma_encode m conv cfg t f x = Ok n ->
    name_of n = t /\ in_order n.
  Proof.
    intros D I1 I2 W. destruct x as [i|i d]; cbn; intros H.
    - destruct (W n H) as (a & l & -> & R & g & o & ->). split; [reflexivity|]. apply runs_elem with s; auto. now apply derived_attributes.
    - apply bind_ok in H as (de & E & H). apply bind_ok in H as (e & F & H). injection H as <-.
      apply dim_run in E as (k & -> & K). destruct (W e F) as (a & l & -> & R & g & o & ->). cbn [merge fold_left app]. split; [reflexivity|].
      apply runs_elem with (dimensions ++ s); auto.
      + replace (fold_left _ _ _) with (derived_attr g o) by (destruct o; reflexivity). now apply derived_attributes.
      + now apply runs_app.
  Qed.
  Definition bits_forms : list content_model := [one "bitRange"; one "lsb" ++ one "msb"; one "bitOffset" ++ one "bitWidth"].
  Lemma bits_run b l : bit_range_encode m cfg b = Ok l -> exists s, In s bits_forms /\ runs s l.
  Proof.
    unfold bit_range_encode. destruct (opt_default _ _); intros H.
    - apply bind_ok in H as (t & _ & H). injection H as <-. exists (one "bitRange"). split; [cbn; tauto|]. runs_tac.
    - injection H as <-. exists (one "bitOffset" ++ one "bitWidth"). split; [cbn; tauto|].
      runs_tac.
    - apply bind_ok in H as (h & _ & H). injection H as <-. exists (one "lsb" ++ one "msb"). split; [cbn; tauto|].
      runs_tac.
  Qed.
  Definition field_content (bits : content_model) : content_model :=
    one "name" ++ opt "description" ++ bits ++ opt "access" ++ opt "modifiedWriteValues" ++ opt "writeConstraint"
     ++ opt "readAction" ++ [(["enumeratedValues"], Often)]%string.
  Lemma field_writes f n : field_info_encode m conv cfg f = Ok n -> exists s, In s bits_forms /\
    exists a l, n = Elem "field" a l /\ runs (field_content s) l /\ (exists g o, a = derived_attr g o).
  Proof.
    unfold field_info_encode. intros H. apply bind_ok in H as (b & B & H). injection H as <-. apply bits_run in B as (s & I & B).
    exists s. split; [exact I|]. do 2 eexists. split; [reflexivity|]. split; [|eauto]. unfold field_content. runs_tac.
    apply runs_app; [exact B|]. runs_tac. apply runs_app; [apply runs_opt; [reflexivity|apply constraint_order]|]. runs_tac.
    apply runs_map. intros x. split; [now left|apply values_order].
  Qed.
  Lemma field_contents s : In s bits_forms -> In ("field"%string, field_content s) contents /\ In ("field"%string, dimensions ++ field_content s) contents.
  Proof. intros [<-|[<-|[<-|[]]]]; split; find_in. Qed.
  Lemma field_order f n : field_encode m conv cfg f = Ok n -> name_of n = "field"%string /\ in_order n.
  Proof.
    intros H. assert (W : exists k, field_info_encode m conv cfg (info f) = Ok k).
    { unfold field_encode, ma_encode in H. destruct f; cbn in *; [eauto|]. apply bind_ok in H as (de & _ & H). apply bind_ok in H as (e & E & _). eauto. }
    destruct W as [k W]. destruct (field_writes _ _ W) as (s & I & S). destruct (field_contents s I).
    apply (array_order "field" (field_content s)) in H; auto; [cbn; tauto|]. intros n' E. rewrite W in E. injection E as <-. exact S.
  Qed.
  Lemma mapM_all {A} (f : A -> res xml) (P : xml -> Prop) l r : mapM f l = Ok r -> (forall x n, In x l -> f x = Ok n -> P n) -> Forall P r.
  Proof.
    revert r. induction l as [|x l IH]; cbn; intros r H K; [injection H as <-; constructor|].
    apply bind_ok in H as (n & E & H). apply bind_ok in H as (r' & E' & H). injection H as <-. constructor; [eapply K; eauto|]. apply IH; eauto.
  Qed.
  Definition register_content : content_model :=
    one "name" ++ opt "displayName" ++ opt "description" ++ opt "alternateGroup" ++ opt "alternateRegister" ++ one "addressOffset"
        ++ properties ++ opt "dataType" ++ opt "modifiedWriteValues" ++ opt "writeConstraint" ++ opt "readAction" ++ opt "fields".
  Lemma register_writes r : writes "register" register_content (register_info_encode m conv cfg) r.
  Proof.
    intros n H. unfold register_info_encode in H. apply bind_ok in H as (fs & F & H). injection H as <-.
    do 2 eexists. split; [reflexivity|]. split; [|eauto]. unfold register_content.
    assert (R : runs (opt "fields") fs).
    { assert (Z : runs (opt "fields") []) by (split; [apply fo_absent|]; constructor).
      destruct (r_fields r) as [v|]; [|injection F as <-; exact Z].
      apply bind_ok in F as (sorted & _ & F). apply bind_ok in F as (ch & C & F). injection F as <-.
      destruct ch as [|x ch]; [exact Z|]. cbn [is_nil]. split; [apply fo_present; [now left|constructor]|].
      constructor; [|constructor]. apply runs_elem with [(["field"], OnceOrMore)]%string; [find_in|now apply plain_attributes|].
      apply runs_some; [discriminate|]. eapply mapM_all; [exact C|]. intros y k _ E. apply field_order in E as [-> E]. split; [now left|exact E]. }
    runs_tac. apply runs_app; [apply props_run|]. runs_tac. apply runs_app; [apply runs_opt; [reflexivity|apply constraint_order]|].
    runs_tac. exact R.
  Qed.
  Lemma register_order r n : register_encode m conv cfg r = Ok n -> name_of n = "register"%string /\ in_order n.
  Proof. intros H. eapply (array_order "register" register_content); [cbn; tauto|find_in|find_in|apply register_writes|exact H]. Qed.
  Definition cluster_content : content_model :=
    one "name" ++ opt "description" ++ opt "alternateCluster" ++ opt "headerStructName" ++ one "addressOffset" ++ properties
        ++ [(["register"; "cluster"], Often)]%string.
  Definition rc_tag (rc : register_cluster) : string := match rc with RCRegister _ => "register" | RCCluster _ => "cluster" end.
  Lemma rc_tag_in rc : In (rc_tag rc) ["register"; "cluster"]%string.
  Proof. destruct rc; cbn; tauto. Qed.
  Lemma rc_order rc : forall n, rc_encode m conv cfg rc = Ok n -> name_of n = rc_tag rc /\ in_order n.
  Proof.
    induction rc as [r|c IH] using rc_tree_ind; intros n H; cbn [rc_encode] in H.
    - apply register_order in H as [-> H]. now split.
    - eapply (array_order "cluster" cluster_content) in H as [-> H]; [now split|cbn; tauto|find_in|find_in|].
      intros k E. unfold cluster_info_encode in E. apply bind_ok in E as (ch & C & E). injection E as <-.
      do 2 eexists. split; [reflexivity|]. split; [|eauto]. unfold cluster_content. runs_tac. apply runs_app; [apply props_run|].
      apply runs_often. eapply mapM_all; [exact C|]. intros x y I E. rewrite Forall_forall in IH. destruct (IH x I y E) as [-> O]. split; [apply rc_tag_in|exact O].
  Qed.
  Lemma block_order a : in_order (ab_encode cfg a).
  Proof.
    apply runs_elem with (one "offset" ++ one "size" ++ one "usage" ++ opt "protection"); [find_in|now apply plain_attributes|].
    cbn [app]. runs_tac.
  Qed.
  Lemma interrupt_order i : in_order (it_encode conv cfg i).
  Proof.
    apply runs_elem with (one "name" ++ opt "description" ++ one "value"); [find_in|now apply plain_attributes|]. runs_tac.
  Qed.
  Definition peripheral_content : content_model :=
    one "name" ++ opt "displayName" ++ opt "version" ++ opt "description" ++ opt "alternatePeripheral" ++ opt "groupName"
        ++ opt "prependToName" ++ opt "appendToName" ++ opt "headerStructName" ++ one "baseAddress" ++ properties
        ++ [(["addressBlock"], Often)]%string ++ [(["interrupt"], Often)]%string ++ opt "registers".
  Lemma peripheral_writes p : writes "peripheral" peripheral_content (peripheral_info_encode m conv cfg) p.
  Proof.
    intros n H. unfold peripheral_info_encode in H. apply bind_ok in H as (rs & F & H). injection H as <-.
    do 2 eexists. split; [reflexivity|]. split; [|eauto]. unfold peripheral_content.
    assert (R : runs (opt "registers") rs).
    { destruct (p_registers p) as [v|]; [|injection F as <-; split; [apply fo_absent|]; constructor].
      apply bind_ok in F as (sorted & _ & F). apply bind_ok in F as (ch & C & F). injection F as <-.
      split; [apply fo_present; [now left|constructor]|].
      constructor; [|constructor]. apply runs_elem with [(["register"; "cluster"], Often)]%string; [find_in|now apply plain_attributes|].
      apply runs_often. eapply mapM_all; [exact C|]. intros y k _ E. apply rc_order in E as [-> E]. split; [apply rc_tag_in|exact E]. }
    runs_tac. apply runs_app; [apply props_run|].
    apply runs_app; [apply runs_map; intros x; split; [now left|apply block_order]|].
    apply runs_app; [apply runs_map; intros x; split; [now left|apply interrupt_order]|exact R].
  Qed.
  Lemma peripheral_order p n : peripheral_encode m conv cfg p = Ok n -> name_of n = "peripheral"%string /\ in_order n.
  Proof. intros H. eapply (array_order "peripheral" peripheral_content); [cbn; tauto|find_in|find_in|apply peripheral_writes|exact H]. Qed.
  Lemma cpu_order c : in_order (cpu_encode c).
  Proof.
    eapply runs_elem; [right; left; reflexivity|now apply plain_attributes|]. cbn [app].
    runs_tac.
  Qed.
  Theorem device_order d n : device_encode m conv cfg d = Ok n -> name_of n = "device"%string /\ in_order n.
  Proof.
    unfold device_encode. intros H. apply bind_ok in H as (sorted & _ & H). apply bind_ok in H as (ps & P & H). injection H as <-.
    split; [reflexivity|]. eapply runs_elem; [left; reflexivity|left; split; reflexivity|]. cbn [app].
    runs_tac. apply runs_app; [apply runs_opt; [reflexivity|apply cpu_order]|]. runs_tac.
    apply runs_app; [apply props_run|]. apply runs_one; [reflexivity|].
    apply runs_elem with [(["peripheral"], Often)]%string; [find_in|now apply plain_attributes|].
    apply runs_often. eapply mapM_all; [exact P|]. intros y k _ E. apply peripheral_order in E as [-> E]. split; [now left|exact E].
  Qed.
End Order.
