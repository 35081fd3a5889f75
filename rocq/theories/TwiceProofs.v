(** Proofs for C23: modifying an element again with the same builder. *)
From Verif Require Import Base Types Validate Builders.

Lemma set_val_twice {A} b (x : A) : set_val b (set_val b x) = set_val b x.
Proof. now destruct b. Qed.
Lemma set_opt_twice {A} b (x : option A) : set_opt b (set_opt b x) = set_opt b x.
Proof. now destruct b. Qed.
Lemma set_str_twice b x : set_str b (set_str b x) = set_str b x.
Proof. now destruct b. Qed.
Lemma set_vec_twice {A} b (x : option (list A)) : set_vec b (set_vec b x) = set_vec b x.
Proof. now destruct b. Qed.
Ltac twice := rewrite ?set_val_twice, ?set_opt_twice, ?set_str_twice, ?set_vec_twice.

Lemma props_twice x b l x' o : rp_modify x b l = (x', o) -> rp_modify x' b l = (x', o).
Proof. unfold rp_modify. intros [= <- <-]. cbn [rp_size rp_access rp_protection rp_reset_value rp_reset_mask]. now twice. Qed.
Lemma value_twice x b l x' o : ev_modify x b l = (x', o) -> ev_modify x' b l = (x', o).
Proof. unfold ev_modify. intros [= <- <-]. cbn [ev_name ev_description ev_value ev_is_default]. now twice. Qed.
Lemma values_twice x b l x' o : evs_modify x b l = (x', o) -> evs_modify x' b l = (x', o).
Proof. unfold evs_modify. destruct (is_some _); intros [= <- <-]; [reflexivity|]. cbn [evs_name evs_usage evs_derived_from evs_values]. now twice. Qed.
Lemma dim_twice x b l x' o : de_modify x b l = (x', o) -> de_modify x' b l = (x', o).
Proof. unfold de_modify. intros [= <- <-]. cbn [de_dim de_increment de_index de_name de_array_index]. now twice. Qed.
Lemma field_twice x b l x' o : field_modify x b l = (x', o) -> field_modify x' b l = (x', o).
Proof.
  unfold field_modify. intros H. apply pair_equal_spec in H as [<- <-].
  cbn [f_name f_description f_bit_range f_access f_mwv f_write_constraint f_read_action f_enumerated_values f_derived_from].
  destruct (fb_bit_range b), (fb_bit_offset b), (fb_bit_width b); cbn [set_val br_offset br_width br_type]; destruct (is_some (fb_derived_from b)); now twice.
Qed.
Lemma register_twice x b l x' o : register_modify x b l = (x', o) -> register_modify x' b l = (x', o).
Proof.
  unfold register_modify. destruct (is_some (rb_derived_from b)).
  - intros H. apply pair_equal_spec in H as [<- <-]. cbn -[register_validate set_val set_str]. now twice.
  - destruct (rp_modify (r_properties x) (rb_properties b) l) as [p e] eqn:E. apply props_twice in E.
    destruct e; intros H; apply pair_equal_spec in H as [<- <-]; cbn -[register_validate set_val set_str set_opt set_vec rp_modify]; rewrite E; now twice.
Qed.
Lemma cluster_twice x b l x' o : cluster_modify x b l = (x', o) -> cluster_modify x' b l = (x', o).
Proof.
  unfold cluster_modify. destruct (is_some (cb_derived_from b)).
  - intros H. apply pair_equal_spec in H as [<- <-]. cbn -[cluster_validate set_val set_str]. now twice.
  - destruct (rp_modify (c_default_properties x) (cb_default_properties b) l) as [p e] eqn:E. apply props_twice in E.
    destruct e; intros H; apply pair_equal_spec in H as [<- <-]; cbn -[cluster_validate set_val set_str set_opt set_vec rp_modify]; rewrite E; now twice.
Qed.
Lemma block_twice x b l x' o : ab_modify x b l = (x', o) -> ab_modify x' b l = (x', o).
Proof. unfold ab_modify. intros [= <- <-]. cbn [ab_offset ab_size ab_use ab_protection]. now twice. Qed.
Lemma interrupt_twice x b l x' o : it_modify x b l = (x', o) -> it_modify x' b l = (x', o).
Proof. unfold it_modify. intros [= <- <-]. cbn [it_name it_description it_value]. now twice. Qed.
Lemma peripheral_twice x b l x' o : peripheral_modify x b l = (x', o) -> peripheral_modify x' b l = (x', o).
Proof.
  unfold peripheral_modify. destruct (is_some (pb_derived_from b)).
  - intros H. apply pair_equal_spec in H as [<- <-]. cbn -[peripheral_validate set_val set_str]. now twice.
  - destruct (rp_modify (p_default_properties x) (pb_default_properties b) l) as [p e] eqn:E. apply props_twice in E.
    destruct e; intros H; apply pair_equal_spec in H as [<- <-]; cbn -[peripheral_validate set_val set_str set_opt set_vec rp_modify]; rewrite E; now twice.
Qed.
Lemma cpu_twice x b l x' o : cpu_modify x b l = (x', o) -> cpu_modify x' b l = (x', o).
Proof. unfold cpu_modify. intros H. apply pair_equal_spec in H as [<- <-]. cbn -[cpu_validate set_val set_opt]. now twice. Qed.
Lemma device_twice x b l x' o : device_modify x b l = (x', o) -> device_modify x' b l = (x', o).
Proof.
  unfold device_modify.
  destruct (rp_modify (d_default_properties x) (db_default_properties b) l) as [p e] eqn:E. apply props_twice in E.
  destruct e; intros H; apply pair_equal_spec in H as [<- <-]; cbn -[device_validate set_val set_str set_opt set_vec rp_modify]; rewrite E; now twice.
Qed.
