From Verif Require Import BaseFacts Types Names Validate Builders SpecArray SpecValidate ValidateProofs SpecBuild.

Lemma str_tidy o : empty_str_to_none o = tidy_text o.
Proof. destruct o as [[|]|]; auto. Qed.
Lemma vec_tidy {A} (o : option (list A)) : empty_vec_to_none o = tidy_list o.
Proof. destruct o as [[|]|]; auto. Qed.
Lemma validated_ok {A} (v : A -> res unit) x y : validated v x = Ok y <-> y = x /\ v x = Ok tt.
Proof.
  unfold validated. destruct (v x) as [[]| |]; cbn; split; try (intros [? ?]; congruence); try discriminate.
  intros H; split; congruence.
Qed.
Lemma required_ok {A} w (o : option A) a : required w o = Ok a <-> o = Some a.
Proof. unfold required, ok_or. destruct o; split; congruence. Qed.
Lemma bind_ok' {A B} (m : res A) (f : A -> res B) b :
  bind m f = Ok b <-> exists a, m = Ok a /\ f a = Ok b.
Proof.
  destruct m; cbn; split; intros H.
  - eauto.
  - destruct H as (? & E & H). congruence.
  - discriminate.
  - destruct H as (? & E & H). discriminate.
  - discriminate.
  - destruct H as (? & E & H). discriminate.
Qed.
Ltac norm_tidy := rewrite ?str_tidy, ?vec_tidy; cbn [required ok_or bind opt_default].

Lemma value_rt l e e' : ev_build l (ev_to_builder e) = Ok e' <-> e' = tidy_value e /\ value_ok l e'.
Proof.
  unfold ev_build, ev_to_builder; cbn [evb_name evb_description evb_value evb_is_default].
  norm_tidy. rewrite validated_ok, ev_validate_ok. fold (tidy_value e).
  split; intros [-> H]; auto.
Qed.
Lemma values_rt l e e' : evs_build l (evs_to_builder e) = Ok e' <-> e' = tidy_values e /\ values_ok l e'.
Proof.
  unfold evs_build, evs_to_builder; cbn [evsb_name evsb_usage evsb_derived_from evsb_values].
  norm_tidy. rewrite validated_ok, evs_validate_ok. fold (tidy_values e).
  split; intros [-> H]; auto.
Qed.
Lemma dim_rt l d : de_build l (de_to_builder d) = Ok (tidy_dim d).
Proof.
  unfold de_build, de_to_builder; cbn [deb_dim deb_increment deb_index deb_name deb_array_index].
  norm_tidy. reflexivity.
Qed.
Lemma field_rt l f f' : field_build l (field_to_builder f) = Ok f' <-> f' = tidy_field f /\ field_ok l f'.
Proof.
  unfold field_build, field_to_builder; cbn [fb_name fb_description fb_bit_range fb_bit_offset fb_bit_width
    fb_access fb_mwv fb_write_constraint fb_read_action fb_enumerated_values fb_derived_from].
  norm_tidy. rewrite validated_ok, field_validate_ok. fold (tidy_field f).
  split; intros [-> H]; auto.
Qed.
Lemma rp_build_ok l p q : rp_build l p = Ok q <-> q = p /\ props_ok l p.
Proof. unfold rp_build. rewrite validated_ok, rp_validate_ok. tauto. Qed.
Lemma rp_bind {B} l p (f : reg_props -> res B) b :
  bind (rp_build l p) f = Ok b <-> props_ok l p /\ f p = Ok b.
Proof.
  rewrite bind_ok'. split.
  - intros (a & H & K). apply rp_build_ok in H. destruct H as [-> H]. auto.
  - intros [H K]. exists p. split; auto. apply rp_build_ok. auto.
Qed.
Lemma register_rt l r r' : register_build l (register_to_builder r) = Ok r' <->
  r' = r /\ props_ok l (r_properties r) /\ register_ok l r.
Proof.
  unfold register_build, register_to_builder; cbn [rb_name rb_address_offset rb_properties]. norm_tidy.
  rewrite rp_bind, validated_ok, register_validate_ok.
  destruct r; cbn. tauto.
Qed.
Lemma cluster_rt l c c' : cluster_build l (cluster_to_builder c) = Ok c' <->
  c' = tidy_cluster c /\ props_ok l (c_default_properties c') /\ cluster_ok l c'.
Proof.
  unfold cluster_build, cluster_to_builder; cbn [cb_name cb_description cb_alternate_cluster
    cb_header_struct_name cb_address_offset cb_default_properties cb_children cb_derived_from]. norm_tidy.
  rewrite rp_bind, validated_ok, cluster_validate_ok. fold (tidy_cluster c).
  split; intros [H K]; [destruct K as [-> K]|subst c'; destruct K]; auto.
Qed.
Lemma peripheral_rt l c c' : peripheral_build l (peripheral_to_builder c) = Ok c' <->
  c' = tidy_peripheral c /\ props_ok l (p_default_properties c') /\ peripheral_ok l c'.
Proof.
  unfold peripheral_build, peripheral_to_builder; cbn [pb_name pb_display_name pb_version pb_description
    pb_alternate_peripheral pb_group_name pb_prepend_to_name pb_append_to_name pb_header_struct_name
    pb_base_address pb_default_properties pb_address_block pb_interrupt pb_registers pb_derived_from]. norm_tidy.
  rewrite rp_bind, validated_ok, peripheral_validate_ok. fold (tidy_peripheral c).
  split; intros [H K]; [destruct K as [-> K]|subst c'; destruct K]; auto.
Qed.
Lemma block_rt l a : ab_build l (ab_to_builder a) = Ok a.
Proof. destruct a; reflexivity. Qed.
Lemma interrupt_rt l a : it_build l (it_to_builder a) = Ok a.
Proof. destruct a; reflexivity. Qed.
Lemma cpu_rt l a : cpu_build l (cpu_to_builder a) = Ok a.
Proof. destruct a; reflexivity. Qed.
Lemma device_rt l d d' : device_build l (device_to_builder d) = Ok d' <->
  d' = d /\ props_ok l (d_default_properties d) /\ device_ok l d.
Proof.
  unfold device_build, device_to_builder; cbn [db_vendor db_vendor_id db_name db_series db_version
    db_description db_license_text db_cpu db_header_system_filename db_header_definitions_prefix
    db_address_unit_bits db_width db_default_properties db_peripherals db_xmlns_xs
    db_no_namespace_schema_location db_schema_version].
  unfold unless_strict; cbn [opt_or]. norm_tidy.
  rewrite rp_bind. norm_tidy. rewrite validated_ok, device_validate_ok. destruct d; cbn. tauto.
Qed.

(** Validity does not depend on the tidied texts (except the name of enumerated
    values, which tidying can only improve). *)
Lemma tidy_values_ok l e : values_ok l e -> values_ok l (tidy_values e).
Proof.
  unfold values_ok, tidy_values; cbn [evs_name evs_usage evs_derived_from evs_values].
  intros [H K]; split; auto. intros E; destruct (K E); split; auto.
  destruct (evs_name e) as [[|]|]; cbn; auto.
Qed.

(** modify_from *)
Lemma set_val_assigned {A} (b : option A) o n : assigned b o n <-> n = set_val b o.
Proof.
  unfold assigned, set_val; destruct b; split.
  - intros [_ H]. auto.
  - intros ->; split; intros; congruence.
  - intros [H _]; auto.
  - intros ->; split; intros; congruence.
Qed.
Lemma set_opt_assigned {A} (b o n : option A) : assigned_opt b o n <-> n = set_opt b o.
Proof.
  unfold assigned_opt, set_opt; destruct b; cbn; split.
  - intros [_ H]. auto.
  - intros ->; split; intros; congruence.
  - intros [H _]; auto.
  - intros ->; split; intros; congruence.
Qed.
Lemma set_str_assigned (b o n : option string) : assigned_text b o n <-> n = set_str b o.
Proof.
  unfold assigned_text, set_str; destruct b; cbn [is_some]; rewrite ?str_tidy; split.
  - intros [_ H]. auto.
  - intros ->; split; intros; congruence.
  - intros [H _]; auto.
  - intros ->; split; intros; congruence.
Qed.
Lemma set_vec_assigned {A} (b o n : option (list A)) : assigned_list b o n <-> n = set_vec b o.
Proof.
  unfold assigned_list, set_vec; destruct b; cbn [is_some]; rewrite ?vec_tidy; split.
  - intros [_ H]. auto.
  - intros ->; split; intros; congruence.
  - intros [H _]; auto.
  - intros ->; split; intros; congruence.
Qed.
Ltac asg := rewrite ?set_val_assigned, ?set_opt_assigned, ?set_str_assigned, ?set_vec_assigned.

Definition rp_set (x b : reg_props) : reg_props :=
  {| rp_size := set_opt (rp_size b) (rp_size x); rp_access := set_opt (rp_access b) (rp_access x);
     rp_protection := set_opt (rp_protection b) (rp_protection x);
     rp_reset_value := set_opt (rp_reset_value b) (rp_reset_value x);
     rp_reset_mask := set_opt (rp_reset_mask b) (rp_reset_mask x) |}.
Lemma props_modified_iff x b x' : props_modified x b x' <-> x' = rp_set x b.
Proof.
  unfold props_modified; asg. destruct x'; unfold rp_set; cbn.
  split; [intros (-> & -> & -> & -> & ->); auto | intros H; injection H; intros; auto].
Qed.
Lemma rp_modify_eq x b l : rp_modify x b l = (rp_set x b, rp_validate l (rp_set x b)).
Proof. reflexivity. Qed.

Lemma pair_iff {A B} (a a' : A) (b b' : B) : (a, b) = (a', b') <-> a' = a /\ b' = b.
Proof. split; [intros H; injection H; auto|intros [-> ->]; auto]. Qed.
Lemma conj_dep (P Q R : Prop) : (P <-> Q) -> (Q -> R) -> (P /\ R <-> Q).
Proof. tauto. Qed.

Lemma props_modify l x b x' o : rp_modify x b l = (x', o) ->
  props_modified x b x' /\ (o = Ok tt <-> props_ok l x').
Proof.
  rewrite rp_modify_eq, pair_iff. intros [-> ->]. split. apply props_modified_iff; auto. apply rp_validate_ok.
Qed.
Lemma value_modify l x b x' o : ev_modify x b l = (x', o) ->
  value_modified x b x' /\ (o = Ok tt <-> value_ok l x').
Proof.
  unfold ev_modify. rewrite pair_iff. intros [-> ->]. rewrite ev_validate_ok. split; [|tauto].
  unfold value_modified. asg. cbn. auto.
Qed.
Lemma dim_modify l x b x' o : de_modify x b l = (x', o) -> dim_modified x b x' /\ o = Ok tt.
Proof.
  unfold de_modify. rewrite pair_iff. intros [-> ->]. split; auto.
  unfold dim_modified. asg. cbn. auto 9.
Qed.
Lemma field_modify_spec l x b x' o : field_modify x b l = (x', o) ->
  field_modified x b x' /\ (o = Ok tt <-> field_ok l x').
Proof.
  unfold field_modify. rewrite pair_iff. intros [-> ->]. rewrite field_validate_ok. split; [|tauto].
  unfold field_modified, bits_modified. destruct (fb_derived_from b); cbn [is_some]; asg; cbn;
  (repeat apply conj; auto; eexists; asg; eauto).
Qed.
Lemma block_modify l x b x' o : ab_modify x b l = (x', o) -> block_modified x b x' /\ o = Ok tt.
Proof.
  unfold ab_modify. rewrite pair_iff. intros [-> ->]. split; auto.
  unfold block_modified. asg. cbn. auto 9.
Qed.
Lemma interrupt_modify l x b x' o : it_modify x b l = (x', o) -> interrupt_modified x b x' /\ o = Ok tt.
Proof.
  unfold it_modify. rewrite pair_iff. intros [-> ->]. split; auto.
  unfold interrupt_modified. asg. cbn. auto 9.
Qed.
Lemma cpu_modify_spec l x b x' o : cpu_modify x b l = (x', o) -> cpu_modified x b x' /\ o = Ok tt.
Proof.
  unfold cpu_modify. rewrite pair_iff. intros [-> ->]. split; auto.
  unfold cpu_modified. asg. cbn. auto 20.
Qed.
Lemma values_modify l x b x' o : evsb_derived_from b = None -> evs_modify x b l = (x', o) ->
  values_modified x b x' /\ (o = Ok tt <-> values_ok l x').
Proof.
  unfold evs_modify. intros E. rewrite E, pair_iff. intros [-> ->]. rewrite evs_validate_ok. split; [|tauto].
  unfold values_modified. rewrite E. cbn [is_some]. asg. cbn. auto.
Qed.

Lemma rp_val_cases l p : (rp_validate l p = Ok tt /\ props_ok l p) \/
  (exists e, rp_validate l p = Err e /\ ~ props_ok l p).
Proof.
  pose proof (rp_validate_ok l p) as K. destruct (rp_validate l p) as [[]|e|q] eqn:E.
  - tauto.
  - right. exists e. split; auto. intros H. apply K in H. discriminate.
  - exfalso. exact (np_rp l p q E).
Qed.

Lemma props_ok_default l : props_ok l rp_default.
Proof. unfold props_ok; cbn. split; [|split]; intros; discriminate. Qed.
#[global] Hint Resolve props_ok_default : core.
Ltac split_all := repeat match goal with |- _ /\ _ => apply conj end.
Ltac unpack := repeat match goal with H : _ /\ _ |- _ => destruct H end.

Lemma register_modify_ok l x b x' : register_modify x b l = (x', Ok tt) <->
  register_modified x b x' /\ props_ok l (r_properties x') /\ register_ok l x'.
Proof.
  unfold register_modify, register_modified. rewrite rp_modify_eq.
  destruct (rb_derived_from b) as [d|]; cbn [is_some].
  - rewrite pair_iff. split.
    + intros [-> H]. symmetry in H. apply register_validate_ok in H. asg. split_all; auto.
    + asg. intros (H & P & R). unpack. destruct x'; cbn in *. subst.
      split; auto. symmetry. now apply register_validate_ok.
  - destruct (rp_val_cases l (rp_set (r_properties x) (rb_properties b))) as [[E P]|(e & E & P)]; rewrite E.
    + rewrite pair_iff. split.
      * intros [-> H]. symmetry in H. apply register_validate_ok in H.
        rewrite props_modified_iff. asg. cbn. split_all; auto.
      * rewrite props_modified_iff. asg. intros (H & _ & R). unpack. destruct x'; cbn in *. subst.
        split; auto. symmetry. now apply register_validate_ok.
    + rewrite pair_iff. split; [intros [_ H]; discriminate|].
      rewrite props_modified_iff. intros (H & Q & R). unpack. exfalso. apply P.
      match goal with E : _ = rp_set _ _ |- _ => rewrite E in Q end. exact Q.
Qed.
Lemma cluster_modify_ok l x b x' : cluster_modify x b l = (x', Ok tt) <->
  cluster_modified x b x' /\ props_ok l (c_default_properties x') /\ cluster_ok l x'.
Proof.
  unfold cluster_modify, cluster_modified. rewrite rp_modify_eq.
  destruct (cb_derived_from b) as [d|]; cbn [is_some].
  - rewrite pair_iff. split.
    + intros [-> H]. symmetry in H. apply cluster_validate_ok in H. asg. split_all; auto.
    + asg. intros (H & P & R). unpack. destruct x'; cbn in *. subst.
      split; auto. symmetry. now apply cluster_validate_ok.
  - destruct (rp_val_cases l (rp_set (c_default_properties x) (cb_default_properties b))) as [[E P]|(e & E & P)]; rewrite E.
    + rewrite pair_iff. split.
      * intros [-> H]. symmetry in H. apply cluster_validate_ok in H.
        rewrite props_modified_iff. asg. cbn. split_all; auto.
      * rewrite props_modified_iff. asg. intros (H & _ & R). unpack. destruct x'; cbn in *. subst.
        split; auto. symmetry. now apply cluster_validate_ok.
    + rewrite pair_iff. split; [intros [_ H]; discriminate|].
      rewrite props_modified_iff. intros (H & Q & R). unpack. exfalso. apply P.
      match goal with E : _ = rp_set _ _ |- _ => rewrite E in Q end. exact Q.
Qed.
Lemma peripheral_modify_ok l x b x' : peripheral_modify x b l = (x', Ok tt) <->
  peripheral_modified x b x' /\ props_ok l (p_default_properties x') /\ peripheral_ok l x'.
Proof.
  unfold peripheral_modify, peripheral_modified. rewrite rp_modify_eq.
  destruct (pb_derived_from b) as [d|]; cbn [is_some].
  - rewrite pair_iff. split.
    + intros [-> H]. symmetry in H. apply peripheral_validate_ok in H. asg. split_all; auto.
    + asg. intros (H & P & R). unpack. destruct x'; cbn in *. subst.
      split; auto. symmetry. now apply peripheral_validate_ok.
  - destruct (rp_val_cases l (rp_set (p_default_properties x) (pb_default_properties b))) as [[E P]|(e & E & P)]; rewrite E.
    + rewrite pair_iff. split.
      * intros [-> H]. symmetry in H. apply peripheral_validate_ok in H.
        rewrite props_modified_iff. asg. cbn. split_all; auto.
      * rewrite props_modified_iff. asg. intros (H & _ & R). unpack. destruct x'; cbn in *. subst.
        split; auto. symmetry. now apply peripheral_validate_ok.
    + rewrite pair_iff. split; [intros [_ H]; discriminate|].
      rewrite props_modified_iff. intros (H & Q & R). unpack. exfalso. apply P.
      match goal with E : _ = rp_set _ _ |- _ => rewrite E in Q end. exact Q.
Qed.
Lemma device_modify_ok l x b x' : device_modify x b l = (x', Ok tt) <->
  device_modified x b x' /\ props_ok l (d_default_properties x') /\ device_ok l x'.
Proof.
  unfold device_modify, device_modified. rewrite rp_modify_eq.
  destruct (rp_val_cases l (rp_set (d_default_properties x) (db_default_properties b))) as [[E P]|(e & E & P)]; rewrite E.
  - rewrite pair_iff. split.
    + intros [-> H]. symmetry in H. apply device_validate_ok in H.
      rewrite props_modified_iff. asg. cbn. split_all; auto.
    + rewrite props_modified_iff. asg. intros (H & _ & R). unpack. destruct x'; cbn in *. subst.
      split; auto. symmetry. now apply device_validate_ok.
  - rewrite pair_iff. split; [intros [_ H]; discriminate|].
    rewrite props_modified_iff. intros (H & Q & R). unpack. exfalso. apply P.
      match goal with E : _ = rp_set _ _ |- _ => rewrite E in Q end. exact Q.
Qed.

(** Frames on failure *)
Lemma set_val_none {A} (b : option A) o : b = None -> set_val b o = o. Proof. intros ->; auto. Qed.
Lemma set_opt_none {A} (b o : option A) : b = None -> set_opt b o = o. Proof. intros ->; auto. Qed.
Lemma set_str_none (b o : option string) : b = None -> set_str b o = o. Proof. intros ->; auto. Qed.
Lemma set_vec_none {A} (b o : option (list A)) : b = None -> set_vec b o = o. Proof. intros ->; auto. Qed.
#[global] Hint Resolve set_val_none set_opt_none set_str_none set_vec_none : core.
Lemma rp_set_kept x b : props_kept x b (rp_set x b).
Proof. unfold props_kept, kept; cbn; auto 9. Qed.
#[global] Hint Resolve rp_set_kept : core.

Lemma register_modify_kept l x b : register_kept x b (fst (register_modify x b l)).
Proof.
  unfold register_modify, register_kept, kept. rewrite rp_modify_eq.
  destruct (rb_derived_from b); cbn [is_some]; [| destruct (rp_validate _ _)]; cbn [fst];
  cbn; split_all; auto; intros; try discriminate; split_all; auto.
Qed.
Lemma cluster_modify_kept l x b : cluster_kept x b (fst (cluster_modify x b l)).
Proof.
  unfold cluster_modify, cluster_kept, kept. rewrite rp_modify_eq.
  destruct (cb_derived_from b); cbn [is_some]; [| destruct (rp_validate _ _)]; cbn [fst];
  cbn; split_all; auto; intros; try discriminate; split_all; auto.
Qed.
Lemma peripheral_modify_kept l x b : peripheral_kept x b (fst (peripheral_modify x b l)).
Proof.
  unfold peripheral_modify, peripheral_kept, kept. rewrite rp_modify_eq.
  destruct (pb_derived_from b); cbn [is_some]; [| destruct (rp_validate _ _)]; cbn [fst];
  cbn; split_all; auto; intros; try discriminate; split_all; auto.
Qed.
Lemma device_modify_kept l x b : device_kept x b (fst (device_modify x b l)).
Proof.
  unfold device_modify, device_kept, kept. rewrite rp_modify_eq.
  destruct (rp_validate _ _); cbn [fst];
  cbn; split_all; auto; intros; try discriminate; split_all; auto.
Qed.

(** The empty builder changes nothing. *)
Definition no_props : reg_props := RegProps None None None None None.
Definition no_ev : ev_builder := EvBuilder None None None None.
Definition no_evs : evs_builder := EvsBuilder None None None None.
Definition no_de : de_builder := DeBuilder None None None None None.
Definition no_register : register_builder :=
  RegisterBuilder None None None None None None no_props None None None None None None.
Definition no_cluster : cluster_builder := ClusterBuilder None None None None None no_props None None.
Definition no_ab : ab_builder := AbBuilder None None None None.
Definition no_it : it_builder := ItBuilder None None None.
Definition no_peripheral : peripheral_builder :=
  PeripheralBuilder None None None None None None None None None None no_props None None None None.
Definition no_cpu : cpu_builder :=
  CpuBuilder None None None None None None None None None None None None None None None None.
Definition no_device : device_builder :=
  DeviceBuilder None None None None None None None None None None None None no_props None None None None.
Lemma assigned_refl {A} (o : A) : assigned None o o. Proof. split; intros; congruence. Qed.
Lemma assigned_opt_refl {A} (o : option A) : assigned_opt None o o. Proof. split; intros; congruence. Qed.
Lemma assigned_text_refl o : assigned_text None o o. Proof. split; intros; congruence. Qed.
Lemma assigned_list_refl {A} (o : option (list A)) : assigned_list None o o. Proof. split; intros; congruence. Qed.
#[global] Hint Resolve assigned_refl assigned_opt_refl assigned_text_refl assigned_list_refl : core.
Lemma props_same x : props_modified x no_props x. Proof. unfold props_modified; cbn; auto 9. Qed.
#[global] Hint Resolve props_same : core.
Lemma props_idle l x : props_ok l x -> rp_modify x no_props l = (x, Ok tt).
Proof. intros H. apply rp_validate_ok in H. destruct x; unfold rp_modify; cbn in *. congruence. Qed.
Lemma value_idle l x : value_ok l x -> ev_modify x no_ev l = (x, Ok tt).
Proof.
  intros H. assert (E : fst (ev_modify x no_ev l) = x) by (destruct x; reflexivity).
  destruct (ev_modify x no_ev l) as [x' o] eqn:F. cbn in E. subst x'.
  apply value_modify in F. f_equal. tauto.
Qed.
Lemma values_idle l x : values_ok l x -> evs_modify x no_evs l = (x, Ok tt).
Proof.
  intros H. assert (E : fst (evs_modify x no_evs l) = x) by (destruct x; reflexivity).
  destruct (evs_modify x no_evs l) as [x' o] eqn:F. cbn in E. subst x'.
  apply values_modify in F; auto. f_equal. tauto.
Qed.
Lemma dim_idle l x : de_modify x no_de l = (x, Ok tt).
Proof. destruct x; reflexivity. Qed.
Lemma field_idle l x : field_ok l x -> field_modify x field_builder_default l = (x, Ok tt).
Proof.
  intros H. apply field_validate_ok in H.
  assert (E : fst (field_modify x field_builder_default l) = x) by (destruct x as [? ? []]; reflexivity).
  destruct (field_modify x field_builder_default l) as [x' o] eqn:F. cbn in E. subst x'.
  apply field_modify_spec in F. apply field_validate_ok in H. f_equal. tauto.
Qed.
Lemma register_idle l x : props_ok l (r_properties x) -> register_ok l x -> register_modify x no_register l = (x, Ok tt).
Proof. intros H K. apply register_modify_ok. split; auto. unfold register_modified; cbn; auto 20. Qed.
Lemma cluster_idle l x : props_ok l (c_default_properties x) -> cluster_ok l x -> cluster_modify x no_cluster l = (x, Ok tt).
Proof. intros H K. apply cluster_modify_ok. split; auto. unfold cluster_modified; cbn; auto 20. Qed.
Lemma peripheral_idle l x : props_ok l (p_default_properties x) -> peripheral_ok l x -> peripheral_modify x no_peripheral l = (x, Ok tt).
Proof. intros H K. apply peripheral_modify_ok. split; auto. unfold peripheral_modified; cbn; auto 20. Qed.
Lemma device_idle l x : props_ok l (d_default_properties x) -> device_ok l x -> device_modify x no_device l = (x, Ok tt).
Proof. intros H K. apply device_modify_ok. split; auto. unfold device_modified; cbn; auto 25. Qed.
