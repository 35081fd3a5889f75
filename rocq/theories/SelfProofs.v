(** Proofs for C23: modifying an element with its own builder. *)
From Verif Require Import Base Types Validate Builders SpecValidate SpecBuild ValidateProofs.

Lemma set_val_self {A} (x : A) : set_val (Some x) x = x.
Proof. reflexivity. Qed.
Lemma set_opt_self {A} (x : option A) : set_opt x x = x.
Proof. now destruct x. Qed.
Lemma set_str_self x : x <> Some ""%string -> set_str x x = x.
Proof. destruct x as [[|]|]; auto. now intros []. Qed.
Lemma set_vec_self {A} (x : option (list A)) : x <> Some [] -> set_vec x x = x.
Proof. destruct x as [[|]|]; auto. now intros []. Qed.
Ltac self := rewrite ?set_val_self, ?set_opt_self, ?set_str_self, ?set_vec_self by assumption.

Lemma props_self l x : props_ok l x -> rp_modify x x l = (x, Ok tt).
Proof. intros H%rp_validate_ok. unfold rp_modify. self. destruct x. cbn in *. now rewrite H. Qed.
Lemma value_self l x : value_ok l x -> ev_description x <> Some ""%string -> ev_modify x (ev_to_builder x) l = (x, Ok tt).
Proof. intros H%ev_validate_ok T. unfold ev_modify. cbn [ev_to_builder evb_name evb_description evb_value evb_is_default]. self. destruct x. cbn -[ev_validate] in *. now rewrite H. Qed.
Lemma values_self l x : values_ok l x -> evs_derived_from x = None -> evs_name x <> Some ""%string -> evs_modify x (evs_to_builder x) l = (x, Ok tt).
Proof.
  intros H%evs_validate_ok D T. unfold evs_modify. cbn [evs_to_builder evsb_name evsb_usage evsb_derived_from evsb_values]. rewrite D. cbn [is_some]. self.
  destruct x. cbn -[evs_validate] in *. subst. now rewrite H.
Qed.
Lemma dim_self l x : de_name x <> Some ""%string -> de_index x <> Some [] -> de_modify x (de_to_builder x) l = (x, Ok tt).
Proof. intros T V. unfold de_modify. cbn [de_to_builder deb_dim deb_increment deb_index deb_name deb_array_index]. self. destruct x. reflexivity. Qed.
Lemma field_self l x : field_ok l x -> f_derived_from x = None -> f_description x <> Some ""%string -> field_modify x (field_to_builder x) l = (x, Ok tt).
Proof.
  intros H%field_validate_ok D T. unfold field_modify. cbn -[field_validate set_str set_opt set_val]. rewrite D. cbn [is_some]. self.
  destruct x as [? ? []]. cbn -[field_validate] in *. subst. now rewrite H.
Qed.
Lemma register_self l x : props_ok l (r_properties x) -> register_ok l x -> r_derived_from x = None ->
  r_display_name x <> Some ""%string -> r_description x <> Some ""%string -> r_alternate_group x <> Some ""%string ->
  r_alternate_register x <> Some ""%string -> r_fields x <> Some [] -> register_modify x (register_to_builder x) l = (x, Ok tt).
Proof.
  intros P%props_self H%register_validate_ok D ? ? ? ? ?. unfold register_modify. cbn -[register_validate set_str set_opt set_val set_vec rp_modify]. rewrite D, P. cbn [is_some]. self.
  destruct x. cbn -[register_validate] in *. subst. now rewrite H.
Qed.
Lemma cluster_self l x : props_ok l (c_default_properties x) -> cluster_ok l x -> c_derived_from x = None ->
  c_description x <> Some ""%string -> c_alternate_cluster x <> Some ""%string -> c_header_struct_name x <> Some ""%string ->
  cluster_modify x (cluster_to_builder x) l = (x, Ok tt).
Proof.
  intros P%props_self H%cluster_validate_ok D ? ? ?. unfold cluster_modify. cbn -[cluster_validate set_str set_opt set_val set_vec rp_modify]. rewrite D, P. cbn [is_some]. self.
  destruct x. cbn -[cluster_validate] in *. subst. now rewrite H.
Qed.
Lemma block_self l x : ab_modify x (ab_to_builder x) l = (x, Ok tt).
Proof. unfold ab_modify. cbn -[set_opt set_val]. self. now destruct x. Qed.
Lemma interrupt_self l x : it_modify x (it_to_builder x) l = (x, Ok tt).
Proof. unfold it_modify. cbn -[set_opt set_val]. self. now destruct x. Qed.
Lemma peripheral_self l x : props_ok l (p_default_properties x) -> peripheral_ok l x -> p_derived_from x = None ->
  tidy_peripheral x = x -> p_registers x <> Some [] -> peripheral_modify x (peripheral_to_builder x) l = (x, Ok tt).
Proof.
  intros P%props_self H%peripheral_validate_ok D T R.
  assert (G : forall o, tidy_text o = o -> o <> Some ""%string) by (intros ? E ->; discriminate).
  assert (p_display_name x <> Some ""%string) by (apply G; exact (f_equal p_display_name T)).
  assert (p_version x <> Some ""%string) by (apply G; exact (f_equal p_version T)).
  assert (p_description x <> Some ""%string) by (apply G; exact (f_equal p_description T)).
  assert (p_alternate_peripheral x <> Some ""%string) by (apply G; exact (f_equal p_alternate_peripheral T)).
  assert (p_group_name x <> Some ""%string) by (apply G; exact (f_equal p_group_name T)).
  assert (p_prepend_to_name x <> Some ""%string) by (apply G; exact (f_equal p_prepend_to_name T)).
  assert (p_append_to_name x <> Some ""%string) by (apply G; exact (f_equal p_append_to_name T)).
  assert (p_header_struct_name x <> Some ""%string) by (apply G; exact (f_equal p_header_struct_name T)).
  clear T G. unfold peripheral_modify. cbn -[peripheral_validate set_str set_opt set_val set_vec rp_modify]. rewrite D, P. cbn [is_some]. self.
  destruct x. cbn -[peripheral_validate] in *. subst. now rewrite H.
Qed.
Lemma cpu_self l x : cpu_modify x (cpu_to_builder x) l = (x, Ok tt).
Proof. unfold cpu_modify. cbn -[set_opt set_val]. self. now destruct x. Qed.
Lemma device_self l x : props_ok l (d_default_properties x) -> device_ok l x ->
  d_vendor x <> Some ""%string -> d_vendor_id x <> Some ""%string -> d_series x <> Some ""%string -> d_license_text x <> Some ""%string ->
  d_header_system_filename x <> Some ""%string -> d_header_definitions_prefix x <> Some ""%string ->
  device_modify x (device_to_builder x) l = (x, Ok tt).
Proof.
  intros P%props_self H%device_validate_ok ? ? ? ? ? ?. unfold device_modify. cbn -[device_validate set_str set_opt set_val set_vec rp_modify]. rewrite P. self.
  destruct x. cbn -[device_validate] in *. subst. now rewrite H.
Qed.
