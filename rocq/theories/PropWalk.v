(** C26-C27: iteration over registers and lookups by name. *)
From Verif Require Import Base Types Arrays SpecWalk WalkProofs.

(** C26: for enough steps the iterator yields exactly the registers in document order,
    at any depth, and then ends; whatever it yields when it ends is that list. *)
Theorem C26_all_registers : forall children, exists out n, visits children out /\
  forall k f, (n <= k)%nat -> (n <= f)%nat -> all_drain k f (all_registers_init children) = Some out.
Proof. exact all_registers_ok. Qed.
Print Assumptions C26_all_registers.
Theorem C26_only_that : forall k f children out,
  all_drain k f (all_registers_init children) = Some out -> visits children out.
Proof. exact drain_visits. Qed.
Print Assumptions C26_only_that.
Theorem C26_one_order : forall children a b, visits children a -> visits children b -> a = b.
Proof. intros c a b H K. exact (visits_det c a H b K). Qed.
Print Assumptions C26_one_order.
Theorem C26_complete : forall children out, visits children out ->
  forall r, In r out <-> register_below children r.
Proof. exact visits_below. Qed.
Print Assumptions C26_complete.
(** registers() and clusters(): the direct children of that kind, in order. *)
Theorem C26_direct : forall a b r c,
  rc_registers (a ++ b) = rc_registers a ++ rc_registers b /\
  rc_clusters (a ++ b) = rc_clusters a ++ rc_clusters b /\
  rc_registers [RCRegister r] = [r] /\ rc_registers [RCCluster c] = [] /\
  rc_clusters [RCRegister r] = [] /\ rc_clusters [RCCluster c] = [c].
Proof.
  intros a b r c. exact (conj (rc_registers_app a b) (conj (rc_clusters_app a b)
    (conj eq_refl (conj eq_refl (conj eq_refl eq_refl))))).
Qed.
Print Assumptions C26_direct.
Definition reg (n : string) : register := Single
  {| r_name := n; r_display_name := None; r_description := None; r_alternate_group := None;
     r_alternate_register := None; r_address_offset := 0; r_properties := rp_default; r_datatype := None;
     r_mwv := None; r_write_constraint := None; r_read_action := None; r_fields := None; r_derived_from := None |}.
Definition clu (n : string) (cs : list register_cluster) : register_cluster := RCCluster (Single
  {| c_name := n; c_description := None; c_alternate_cluster := None; c_header_struct_name := None;
     c_address_offset := 0; c_default_properties := rp_default; c_children := cs; c_derived_from := None |}).
Definition tree : list register_cluster :=
  [RCRegister (reg "A"); clu "X" [clu "Y" [RCRegister (reg "B")]; RCRegister (reg "C")]; RCRegister (reg "D")].
Example C26_case : option_map (map (fun r => r_name (info r))) (all_drain 9 9 (all_registers_init tree))
  = Some ["A"; "B"; "C"; "D"].
Proof. reflexivity. Qed.

(** C27: lookups. *)
Theorem C27_register : forall cs n r, get_register cs n = Some r <->
  exists before after, cs = before ++ RCRegister r :: after /\ r_name (info r) = n /\
    forall q, In (RCRegister q) before -> r_name (info q) <> n.
Proof. exact get_register_iff. Qed.
Print Assumptions C27_register.
Theorem C27_cluster : forall cs n c, get_cluster cs n = Some c <->
  exists before after, cs = before ++ RCCluster c :: after /\ c_name (info c) = n /\
    forall q, In (RCCluster q) before -> c_name (info q) <> n.
Proof. exact get_cluster_iff. Qed.
Print Assumptions C27_cluster.
Theorem C27_absent : forall cs n,
  (get_register cs n = None <-> forall r, In (RCRegister r) cs -> r_name (info r) <> n) /\
  (get_cluster cs n = None <-> forall c, In (RCCluster c) cs -> c_name (info c) <> n).
Proof. intros cs n. exact (conj (get_register_none cs n) (get_cluster_none cs n)). Qed.
Print Assumptions C27_absent.
Theorem C27_others : forall n,
  (forall d p, get_peripheral d n = Some p <-> first_named (fun p => p_name (info p)) n (d_peripherals d) p) /\
  (forall d, get_peripheral d n = None <-> forall p, In p (d_peripherals d) -> p_name (info p) <> n) /\
  (forall r fs f, r_fields r = Some fs ->
     (get_field r n = Some f <-> first_named (fun f => f_name (info f)) n fs f)) /\
  (forall r, get_field r n = None <-> forall fs f, r_fields r = Some fs -> In f fs -> f_name (info f) <> n) /\
  (forall p i, get_interrupt p n = Some i <-> first_named it_name n (p_interrupt p) i) /\
  (forall e v, get_value e n = Some v <-> first_named ev_name n (evs_values e) v) /\
  (forall e v, default_value e = Some v -> In v (evs_values e) /\ ev_is_default v = Some true).
Proof.
  intros n. repeat apply conj.
  - intros d p. exact (named_iff (fun p : peripheral => p_name (info p)) n (d_peripherals d) p).
  - intros d. exact (named_none (fun p : peripheral => p_name (info p)) n (d_peripherals d)).
  - intros r fs f H. unfold get_field, r_fields_iter. rewrite H.
    exact (named_iff (fun f : field => f_name (info f)) n fs f).
  - intros r. unfold get_field, r_fields_iter. rewrite (named_none (fun f : field => f_name (info f))).
    destruct (r_fields r) as [fs|]; cbn; split; intros H.
    + intros fs' f E. injection E as <-. apply H.
    + intros f Hf. eapply H; eauto.
    + intros; discriminate.
    + intros f [].
  - intros p i. exact (named_iff it_name n (p_interrupt p) i).
  - intros e v. exact (named_iff ev_name n (evs_values e) v).
  - intros e v. unfold default_value. rewrite find_first_iff. intros (b & a & -> & H & _). split.
    + apply in_or_app. right. left. auto.
    + destruct (ev_is_default v) as [[|]|]; auto; discriminate.
Qed.
Print Assumptions C27_others.
Example C27_case : get_register tree "D" = Some (reg "D") /\ get_register tree "B" = None /\
  option_map (fun c => c_name (info c)) (get_cluster tree "X") = Some "X".
Proof. repeat split. Qed.
