(** C22-C25 and C51: builders and modify_from. *)
From Verif Require Import Base Types Names Validate Builders SpecValidate SpecBuild ValidateProofs BuilderProofs.

(** C22: into a builder and back. *)
Theorem C22_value : forall l e e',
  ev_build l (ev_to_builder e) = Ok e' <-> e' = tidy_value e /\ value_ok l e'.
Proof. exact value_rt. Qed.
Print Assumptions C22_value.
Theorem C22_values : forall l e e',
  evs_build l (evs_to_builder e) = Ok e' <-> e' = tidy_values e /\ values_ok l e'.
Proof. exact values_rt. Qed.
Print Assumptions C22_values.
Theorem C22_dim : forall l d, de_build l (de_to_builder d) = Ok (tidy_dim d).
Proof. exact dim_rt. Qed.
Print Assumptions C22_dim.
Theorem C22_field : forall l f f',
  field_build l (field_to_builder f) = Ok f' <-> f' = tidy_field f /\ field_ok l f'.
Proof. exact field_rt. Qed.
Print Assumptions C22_field.
Theorem C22_register : forall l r r', register_build l (register_to_builder r) = Ok r' <->
  r' = r /\ props_ok l (r_properties r) /\ register_ok l r.
Proof. exact register_rt. Qed.
Print Assumptions C22_register.
Theorem C22_cluster : forall l c c', cluster_build l (cluster_to_builder c) = Ok c' <->
  c' = tidy_cluster c /\ props_ok l (c_default_properties c') /\ cluster_ok l c'.
Proof. exact cluster_rt. Qed.
Print Assumptions C22_cluster.
Theorem C22_peripheral : forall l p p', peripheral_build l (peripheral_to_builder p) = Ok p' <->
  p' = tidy_peripheral p /\ props_ok l (p_default_properties p') /\ peripheral_ok l p'.
Proof. exact peripheral_rt. Qed.
Print Assumptions C22_peripheral.
Theorem C22_simple : (forall l a, ab_build l (ab_to_builder a) = Ok a) /\
  (forall l i, it_build l (it_to_builder i) = Ok i) /\ (forall l c, cpu_build l (cpu_to_builder c) = Ok c).
Proof. exact (conj block_rt (conj interrupt_rt cpu_rt)). Qed.
Print Assumptions C22_simple.
Theorem C22_device : forall l d d', device_build l (device_to_builder d) = Ok d' <->
  d' = d /\ props_ok l (d_default_properties d) /\ device_ok l d.
Proof. exact device_rt. Qed.
Print Assumptions C22_device.
(** A valid element stays valid when its empty texts are dropped, so the round trip of
    a valid element always succeeds. *)
Theorem C22_tidy_valid : forall l,
  (forall e, value_ok l e -> value_ok l (tidy_value e)) /\
  (forall e, values_ok l e -> values_ok l (tidy_values e)) /\
  (forall f, field_ok l f -> field_ok l (tidy_field f)) /\
  (forall c, cluster_ok l c -> cluster_ok l (tidy_cluster c)) /\
  (forall p, peripheral_ok l p -> peripheral_ok l (tidy_peripheral p)).
Proof. intros l. split_all; auto using tidy_values_ok. Qed.
Print Assumptions C22_tidy_valid.

(** A builder without a mandatory attribute is refused, naming it (the first one in
    the order of the code when several are missing). *)
Theorem C22_missing : forall l,
  (forall b, evb_name b = None -> ev_build l b = Err (EUninitialized "name")) /\
  (forall b, deb_dim b = None -> de_build l b = Err (EUninitialized "dim")) /\
  (forall b, deb_dim b <> None -> deb_increment b = None -> de_build l b = Err (EUninitialized "dim_increment")) /\
  (forall b, fb_name b = None -> field_build l b = Err (EUninitialized "name")) /\
  (forall b, fb_name b <> None -> fb_bit_range b = None -> field_build l b = Err (EUninitialized "bit_range")) /\
  (forall b, rb_name b = None -> register_build l b = Err (EUninitialized "name")) /\
  (forall b, rb_name b <> None -> rb_address_offset b = None ->
     register_build l b = Err (EUninitialized "address_offset")) /\
  (forall b, cb_name b = None -> cluster_build l b = Err (EUninitialized "name")) /\
  (forall b, cb_name b <> None -> cb_address_offset b = None ->
     cluster_build l b = Err (EUninitialized "address_offset")) /\
  (forall b, cb_name b <> None -> cb_address_offset b <> None -> props_ok l (cb_default_properties b) ->
     cb_children b = None -> cluster_build l b = Err (EUninitialized "children")) /\
  (forall b, pb_name b = None -> peripheral_build l b = Err (EUninitialized "name")) /\
  (forall b, pb_name b <> None -> pb_base_address b = None ->
     peripheral_build l b = Err (EUninitialized "base_address")) /\
  (forall b, itb_name b = None -> it_build l b = Err (EUninitialized "name")) /\
  (forall b, itb_name b <> None -> itb_value b = None -> it_build l b = Err (EUninitialized "value")).
Proof.
  intros l. split_all; intros b; intros;
  unfold ev_build, de_build, field_build, register_build, cluster_build, peripheral_build, it_build;
  repeat match goal with
  | H : ?x = None |- context [required _ ?x] => rewrite H
  | H : ?x <> None |- context [required _ ?x] => destruct x; [cbn [required ok_or bind]|congruence]
  end; auto.
  unfold rp_build, validated. apply rp_validate_ok in H1. rewrite H1. reflexivity.
Qed.
Print Assumptions C22_missing.
(** A device: only the name and the peripherals are mandatory below Strict; the others
    then have defaults. *)
Theorem C22_missing_device : forall l b,
  (db_name b = None -> device_build l b = Err (EUninitialized "name")) /\
  (db_name b <> None -> l = Strict -> db_version b = None ->
     device_build l b = Err (EUninitialized "version")) /\
  (forall d, device_build l b = Ok d ->
     db_name b = Some (d_name d) /\ db_peripherals b = Some (d_peripherals d) /\
     (db_version b = Some (d_version d) \/ (db_version b = None /\ l <> Strict /\ d_version d = "1.0")) /\
     (db_description b = Some (d_description d) \/ (db_description b = None /\ l <> Strict /\ d_description d = "")) /\
     (db_address_unit_bits b = Some (d_address_unit_bits d) \/
        (db_address_unit_bits b = None /\ l <> Strict /\ d_address_unit_bits d = 8)) /\
     (db_width b = Some (d_width d) \/ (db_width b = None /\ l <> Strict /\ d_width d = 32))).
Proof.
  intros l b. unfold device_build, unless_strict. split; [|split].
  - intros ->. reflexivity.
  - intros H -> ->. destruct (db_name b); [reflexivity|congruence].
  - assert (U : forall {A} w (dflt : A) o a, required w (opt_or o (if negb (is_strict l) then Some dflt else None)) = Ok a ->
      o = Some a \/ (o = None /\ l <> Strict /\ a = dflt)).
    { intros A w dflt o a. rewrite required_ok. destruct o; cbn. intros H; left; auto.
      destruct l; cbn; intros H; [right|right|discriminate]; injection H; intros; repeat split; auto; discriminate. }
    intros d H. apply bind_ok' in H as (n & E1 & H). apply required_ok in E1.
    apply bind_ok' in H as (v & E2 & H). apply U in E2.
    apply bind_ok' in H as (de & E3 & H). apply U in E3.
    apply bind_ok' in H as (bi & E4 & H). apply U in E4.
    apply bind_ok' in H as (w & E5 & H). apply U in E5.
    apply bind_ok' in H as (p & E6 & H).
    apply bind_ok' in H as (ps & E7 & H). apply required_ok in E7.
    apply validated_ok in H as [-> _]. cbn. split_all; auto.
Qed.
Print Assumptions C22_missing_device.
(** The first attribute in the list that is not set is the one the error names. *)
Definition first_missing {A} (attributes : list (string * bool)) (r : res A) : Prop :=
  forall before w after, attributes = before ++ (w, false) :: after -> Forall (fun x => snd x = true) before ->
  r = Err (EUninitialized w).
Lemma missing_set {A} w l (r : res A) : first_missing l r -> first_missing ((w, true) :: l) r.
Proof.
  intros H [|y before] v after E P; cbn in E; [discriminate|]. injection E as _ E. inversion P; subst. eapply H; eauto.
Qed.
Lemma missing_here {A} w l (r : res A) : r = Err (EUninitialized w) -> first_missing ((w, false) :: l) r.
Proof.
  intros H [|y before] v after E P; cbn in E; injection E as E _; [congruence|]. subst y. inversion P; subst. discriminate.
Qed.
Lemma missing_none {A} (r : res A) : first_missing [] r.
Proof. intros [|y before] v after E P; discriminate. Qed.
Ltac tell_missing := cbn [is_some]; repeat apply missing_set; (apply missing_none || (apply missing_here; cbn; try reflexivity)).
(** The order of the checks: address blocks, processors and, at level Strict, devices. *)
Theorem C22_missing_rest : forall l,
  (forall b, first_missing [("offset", is_some (abb_offset b)); ("size", is_some (abb_size b)); ("usage", is_some (abb_use b))]
     (ab_build l b)) /\
  (forall b, first_missing [("name", is_some (cpub_name b)); ("revision", is_some (cpub_revision b)); ("endian", is_some (cpub_endian b));
     ("mpu_present", is_some (cpub_mpu_present b)); ("fpu_present", is_some (cpub_fpu_present b));
     ("nvic_priority_bits", is_some (cpub_nvic_priority_bits b)); ("has_vendor_systick", is_some (cpub_has_vendor_systick b))]
     (cpu_build l b)) /\
  (forall b, l = Strict -> props_ok l (db_default_properties b) ->
     first_missing [("name", is_some (db_name b)); ("version", is_some (db_version b)); ("description", is_some (db_description b));
     ("addressUnitBits", is_some (db_address_unit_bits b)); ("width", is_some (db_width b)); ("peripherals", is_some (db_peripherals b))]
     (device_build l b)).
Proof.
  intros l. split; [|split].
  - intros b. unfold ab_build. destruct (abb_offset b), (abb_size b), (abb_use b); tell_missing.
  - intros b. unfold cpu_build.
    destruct (cpub_name b), (cpub_revision b), (cpub_endian b), (cpub_mpu_present b), (cpub_fpu_present b),
      (cpub_nvic_priority_bits b), (cpub_has_vendor_systick b); tell_missing.
  - intros b -> R. unfold device_build, unless_strict. apply rp_validate_ok in R.
    assert (B : rp_build Strict (db_default_properties b) = Ok (db_default_properties b)) by (unfold rp_build, validated; now rewrite R).
    destruct (db_name b), (db_version b), (db_description b), (db_address_unit_bits b), (db_width b), (db_peripherals b);
      tell_missing; rewrite ?B; reflexivity.
Qed.
Print Assumptions C22_missing_rest.
Example C22_missing_case : ab_build Weak (AbBuilder (Some 0) None None None) = Err (EUninitialized "size").
Proof.
  apply (proj1 (C22_missing_rest Weak) (AbBuilder (Some 0) None None None) [("offset"%string, true)] "size"%string [("usage"%string, false)]);
    [reflexivity|repeat constructor].
Qed.

Definition sample_cluster (d : option string) : cluster_info :=
  {| c_name := "C[%s]"; c_description := d; c_alternate_cluster := None; c_header_struct_name := Some "H";
     c_address_offset := 16; c_default_properties := RegProps (Some 8) None None (Some 255) None;
     c_children := [RCCluster (Single (ClusterInfo "D" None None None 0 rp_default [] (Some "E")))];
     c_derived_from := None |}.
Example C22_case : cluster_build Strict (cluster_to_builder (sample_cluster (Some ""))) = Ok (sample_cluster None)
  /\ cluster_build Strict (cluster_to_builder (sample_cluster (Some "text"))) = Ok (sample_cluster (Some "text")).
Proof. split; vm_compute; reflexivity. Qed.

(** C23: modify_from assigns exactly what is set and validates the result. *)
Theorem C23_simple : forall l,
  (forall x b x' o, rp_modify x b l = (x', o) -> props_modified x b x' /\ (o = Ok tt <-> props_ok l x')) /\
  (forall x b x' o, ev_modify x b l = (x', o) -> value_modified x b x' /\ (o = Ok tt <-> value_ok l x')) /\
  (forall x b x' o, evsb_derived_from b = None -> evs_modify x b l = (x', o) ->
     values_modified x b x' /\ (o = Ok tt <-> values_ok l x')) /\
  (forall x b x' o, de_modify x b l = (x', o) -> dim_modified x b x' /\ o = Ok tt) /\
  (forall x b x' o, field_modify x b l = (x', o) -> field_modified x b x' /\ (o = Ok tt <-> field_ok l x')) /\
  (forall x b x' o, ab_modify x b l = (x', o) -> block_modified x b x' /\ o = Ok tt) /\
  (forall x b x' o, it_modify x b l = (x', o) -> interrupt_modified x b x' /\ o = Ok tt) /\
  (forall x b x' o, cpu_modify x b l = (x', o) -> cpu_modified x b x' /\ o = Ok tt).
Proof.
  intros l. exact (conj (props_modify l) (conj (value_modify l) (conj (values_modify l) (conj (dim_modify l)
    (conj (field_modify_spec l) (conj (block_modify l) (conj (interrupt_modify l) (cpu_modify_spec l)))))))).
Qed.
Print Assumptions C23_simple.
Theorem C23_register : forall l x b x', register_modify x b l = (x', Ok tt) <->
  register_modified x b x' /\ props_ok l (r_properties x') /\ register_ok l x'.
Proof. exact register_modify_ok. Qed.
Print Assumptions C23_register.
Theorem C23_cluster : forall l x b x', cluster_modify x b l = (x', Ok tt) <->
  cluster_modified x b x' /\ props_ok l (c_default_properties x') /\ cluster_ok l x'.
Proof. exact cluster_modify_ok. Qed.
Print Assumptions C23_cluster.
Theorem C23_peripheral : forall l x b x', peripheral_modify x b l = (x', Ok tt) <->
  peripheral_modified x b x' /\ props_ok l (p_default_properties x') /\ peripheral_ok l x'.
Proof. exact peripheral_modify_ok. Qed.
Print Assumptions C23_peripheral.
Theorem C23_device : forall l x b x', device_modify x b l = (x', Ok tt) <->
  device_modified x b x' /\ props_ok l (d_default_properties x') /\ device_ok l x'.
Proof. exact device_modify_ok. Qed.
Print Assumptions C23_device.
(** Whatever the outcome, an attribute the builder does not set is not touched. *)
Theorem C23_frame : forall l,
  (forall x b, register_kept x b (fst (register_modify x b l))) /\
  (forall x b, cluster_kept x b (fst (cluster_modify x b l))) /\
  (forall x b, peripheral_kept x b (fst (peripheral_modify x b l))) /\
  (forall x b, device_kept x b (fst (device_modify x b l))).
Proof.
  intros l. exact (conj (register_modify_kept l) (conj (cluster_modify_kept l)
    (conj (peripheral_modify_kept l) (device_modify_kept l)))).
Qed.
Print Assumptions C23_frame.
(** The empty builder is the identity on valid elements. *)
Theorem C23_identity : forall l,
  (forall x, props_ok l x -> rp_modify x no_props l = (x, Ok tt)) /\
  (forall x, value_ok l x -> ev_modify x no_ev l = (x, Ok tt)) /\
  (forall x, values_ok l x -> evs_modify x no_evs l = (x, Ok tt)) /\
  (forall x, de_modify x no_de l = (x, Ok tt)) /\
  (forall x, field_ok l x -> field_modify x field_builder_default l = (x, Ok tt)) /\
  (forall x, props_ok l (r_properties x) -> register_ok l x -> register_modify x no_register l = (x, Ok tt)) /\
  (forall x, props_ok l (c_default_properties x) -> cluster_ok l x -> cluster_modify x no_cluster l = (x, Ok tt)) /\
  (forall x, props_ok l (p_default_properties x) -> peripheral_ok l x -> peripheral_modify x no_peripheral l = (x, Ok tt)) /\
  (forall x, props_ok l (d_default_properties x) -> device_ok l x -> device_modify x no_device l = (x, Ok tt)).
Proof.
  intros l. exact (conj (props_idle l) (conj (value_idle l) (conj (values_idle l) (conj (dim_idle l)
    (conj (field_idle l) (conj (register_idle l) (conj (cluster_idle l) (conj (peripheral_idle l) (device_idle l))))))))).
Qed.
Print Assumptions C23_identity.
Definition base_register : register_info :=
  {| r_name := "R"; r_display_name := Some "disp"; r_description := Some "text"; r_alternate_group := None;
     r_alternate_register := None; r_address_offset := 4; r_properties := RegProps (Some 8) None None (Some 3) None;
     r_datatype := None; r_mwv := None; r_write_constraint := None; r_read_action := None;
     r_fields := None; r_derived_from := None |}.
Definition change (name descr : option string) (reset : option N) (derived : option string) : register_builder :=
  {| rb_name := name; rb_display_name := None; rb_description := descr; rb_alternate_group := None;
     rb_alternate_register := None; rb_address_offset := None;
     rb_properties := RegProps None None None reset None; rb_datatype := None; rb_mwv := None;
     rb_write_constraint := None; rb_read_action := None; rb_fields := None; rb_derived_from := derived |}.
Example C23_case : exists x', register_modify base_register (change (Some "S") (Some "") (Some 9) None) Strict = (x', Ok tt)
  /\ r_name x' = "S" /\ r_description x' = None /\ r_display_name x' = Some "disp" /\
  r_properties x' = RegProps (Some 8) None None (Some 9) None.
Proof. eexists. split; [vm_compute; reflexivity|]. cbn. auto. Qed.

(** C24: setting offset and width of a field. Offset first, then width, works as
    expected ... *)
Definition named (n : string) : field_builder := FieldBuilder (Some n) None None None None None None None None None None.
Definition no_bits (b : field_builder) : Prop := fb_bit_range b = None /\ fb_bit_offset b = None /\ fb_bit_width b = None.
Theorem C24_offset_then_width : forall b o w, no_bits b ->
  fb_bit_range (fb_set_bit_width w (fb_set_bit_offset o b)) =
  Some {| br_offset := o; br_width := w; br_type := BRT_OffsetWidth |}.
Proof. intros b o w (A & B & C). unfold fb_set_bit_offset. rewrite A, B. reflexivity. Qed.
Print Assumptions C24_offset_then_width.
(** ... once a range is set the setters commute and the last value wins ... *)
Theorem C24_after_range : forall b r, fb_bit_range b = Some r -> forall o o' w w',
  fb_set_bit_offset o (fb_set_bit_width w b) = fb_set_bit_width w (fb_set_bit_offset o b) /\
  fb_set_bit_offset o (fb_set_bit_offset o' b) = fb_set_bit_offset o b /\
  fb_set_bit_width w (fb_set_bit_width w' b) = fb_set_bit_width w b /\
  fb_bit_range (fb_set_bit_width w (fb_set_bit_offset o b)) =
    Some {| br_offset := o; br_width := w; br_type := br_type r |}.
Proof.
  intros b r H o o' w w'. unfold fb_set_bit_offset, fb_set_bit_width. rewrite H. cbn. rewrite ?H. auto.
Qed.
Print Assumptions C24_after_range.
(** ... but width first, then offset, never yields a field, whatever the values ... *)
Theorem C24_width_then_offset_fails : forall l b o w, no_bits b ->
  exists e, field_build l (fb_set_bit_offset o (fb_set_bit_width w b)) = Err (EUninitialized e) /\
  e = (if is_some (fb_name b) then "bit_range" else "name")%string.
Proof.
  intros l b o w (A & B & C). unfold fb_set_bit_width. rewrite A, B. unfold fb_set_bit_offset. cbn. rewrite ?B.
  unfold field_build. cbn. destruct (fb_name b); eexists; split; reflexivity.
Qed.
Print Assumptions C24_width_then_offset_fails.
(** ... and calling bit_offset twice takes the first offset for a width. *)
Theorem C24_offset_twice : forall b o o', no_bits b ->
  fb_bit_range (fb_set_bit_offset o' (fb_set_bit_offset o b)) =
  Some {| br_offset := o'; br_width := o; br_type := BRT_OffsetWidth |}.
Proof. intros b o o' (A & B & C). unfold fb_set_bit_offset at 2. rewrite A, B. reflexivity. Qed.
Print Assumptions C24_offset_twice.
Theorem C24_commute_refuted : exists n o w,
  field_build Weak (fb_set_bit_width w (fb_set_bit_offset o (named n))) <>
  field_build Weak (fb_set_bit_offset o (fb_set_bit_width w (named n))).
Proof. exists "F", 3, 2. vm_compute. discriminate. Qed.
Print Assumptions C24_commute_refuted.
Example C24_unset : no_bits (named "F").
Proof. repeat split. Qed.
Example C24_case : exists f, field_build Strict (fb_set_bit_width 2 (fb_set_bit_offset 3 (named "F"))) = Ok f
  /\ f_bit_range f = {| br_offset := 3; br_width := 2; br_type := BRT_OffsetWidth |}.
Proof. eexists. split; [vm_compute; reflexivity|reflexivity]. Qed.

(** C25: modify_from never changes derivedFrom of enumerated values; with derivedFrom in
    the builder it drops name, usage and values instead, and the result of turning
    non-derived values into derived ones is refused. *)
Theorem C25_never : forall l x b, evs_derived_from (fst (evs_modify x b l)) = evs_derived_from x.
Proof. intros l x b. unfold evs_modify. destruct (is_some _); reflexivity. Qed.
Print Assumptions C25_never.
Theorem C25_emptied : forall l x b d, evsb_derived_from b = Some d -> evs_derived_from x = None ->
  checked l -> evs_modify x b l = (EnumeratedValues None None None [], Err EEvsEmpty).
Proof.
  intros l x b d H K C. unfold evs_modify. rewrite H, K. cbn [is_some].
  destruct C as [-> | ->]; reflexivity.
Qed.
Print Assumptions C25_emptied.
Theorem C25_derived_refuted : exists x b d, evsb_derived_from b = Some d /\
  forall l, evs_derived_from (fst (evs_modify x b l)) <> Some d.
Proof.
  exists (EnumeratedValues None None None [EnumeratedValue "A" None (Some 0) None]),
    (EvsBuilder None None (Some "E") None), "E".
  split; auto. intros l. rewrite C25_never. discriminate.
Qed.
Print Assumptions C25_derived_refuted.

(** C51: modify_from is not atomic: a failed call leaves the element changed. *)
Theorem C51_atomic_refuted : exists x b l e x', register_ok l x /\ props_ok l (r_properties x) /\
  register_modify x b l = (x', Err e) /\ x' <> x /\ ~ props_ok l (r_properties x').
Proof.
  exists base_register, (change (Some "S") None (Some 300) None), Weak, (EValueTooLarge 300 8).
  eexists. split; [|split; [|split; [|split]]].
  - apply register_validate_ok. reflexivity.
  - apply rp_validate_ok. reflexivity.
  - vm_compute. reflexivity.
  - discriminate.
  - rewrite <- rp_validate_ok. discriminate.
Qed.
Print Assumptions C51_atomic_refuted.
(** What does hold: the element is changed only if it is a success or one of the
    attributes the builder sets (C23_frame), and a success leaves a valid element. *)
Theorem C51_success_valid : forall l,
  (forall x b x', register_modify x b l = (x', Ok tt) -> props_ok l (r_properties x') /\ register_ok l x') /\
  (forall x b x', cluster_modify x b l = (x', Ok tt) -> props_ok l (c_default_properties x') /\ cluster_ok l x') /\
  (forall x b x', peripheral_modify x b l = (x', Ok tt) -> props_ok l (p_default_properties x') /\ peripheral_ok l x') /\
  (forall x b x', device_modify x b l = (x', Ok tt) -> props_ok l (d_default_properties x') /\ device_ok l x').
Proof.
  intros l. split_all; intros x b x' H;
  [apply register_modify_ok in H | apply cluster_modify_ok in H | apply peripheral_modify_ok in H | apply device_modify_ok in H]; tauto.
Qed.
Print Assumptions C51_success_valid.
