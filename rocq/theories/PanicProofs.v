(** When the parser panics. *)
From Verif Require Import BaseFacts Num Types Names Validate Builders Arrays Xml Parse SpecNum NumProofs EnumProofs
  SpecValidate ValidateProofs BuilderProofs SpecText SpecXml XmlFacts BitProofs SpecParse ParseProofs.

(** Panics of [r] satisfy [S]. *)
Definition only {A} (S : panic -> Prop) (r : res A) : Prop := forall p, r = Panic p -> S p.
Lemma only_bind {A B} S (r : res A) (f : A -> res B) : only S r -> (forall a, r = Ok a -> only S (f a)) -> only S (bind r f).
Proof.
  intros H K p. destruct r as [a|e|q]; cbn; [now apply K|discriminate|]. intros E. injection E as ->. now apply H.
Qed.
Lemma only_np {A} S (r : res A) : no_panic r -> only S r.
Proof. intros H p E. now apply H in E. Qed.
Lemma only_weaken {A} (S S' : panic -> Prop) (r : res A) : (forall p, S p -> S' p) -> only S r -> only S' r.
Proof. intros H K p E. apply H, K, E. Qed.
Lemma only_rmap {A B} S (f : A -> B) r : only S r -> only S (rmap f r).
Proof. intros H. apply only_bind; [exact H|]. intros a _ p E. discriminate. Qed.
Lemma only_collect {A} S p (f : xml -> res A) l : (forall n, In n l -> p n = true -> only S (f n)) -> only S (collect p f l).
Proof.
  induction l as [|n l IH]; intros H; cbn; [intros q E; discriminate|]. destruct (p n) eqn:P.
  - apply only_bind; [apply H; cbn; auto|]. intros a _. apply only_bind; [apply IH; intros; apply H; cbn; auto|].
    intros r _ q E. discriminate.
  - apply IH. intros. apply H; cbn; auto.
Qed.
Lemma only_optional {A} S (f : xml -> res A) k n : (forall c, get_child k n = Some c -> only S (f c)) -> only S (optional f k n).
Proof.
  unfold optional. destruct (get_child k n) as [c|]; cbn; intros H; [|intros p E; discriminate].
  apply only_rmap. now apply H.
Qed.

Lemma np_validated {A} v (x : A) : no_panic (v x) -> no_panic (validated v x).
Proof. intros H. unfold validated. apply np_bind; [exact H|]. intros; apply np_ok. Qed.
Lemma np_required {A} w (o : option A) : no_panic (required w o).
Proof. unfold required, ok_or. destruct o; [apply np_ok|apply np_err]. Qed.
Lemma np_ok_or {A} (o : option A) e : no_panic (ok_or o e).
Proof. destruct o; [apply np_ok|apply np_err]. Qed.
Lemma np_rp_build l p : no_panic (rp_build l p). Proof. apply np_validated, np_rp. Qed.
Lemma np_ev_build l b : no_panic (ev_build l b).
Proof. unfold ev_build. apply np_bind; [apply np_required|]. intros; apply np_validated, np_ev. Qed.
Lemma np_evs_build l b : no_panic (evs_build l b). Proof. apply np_validated, np_evs. Qed.
Lemma np_de_build l b : no_panic (de_build l b).
Proof. unfold de_build. apply np_bind; [apply np_required|]. intros. apply np_bind; [apply np_required|]. intros. apply np_validated, np_ok. Qed.
Lemma np_register_build l b : no_panic (register_build l b).
Proof.
  unfold register_build. repeat (apply np_bind; [apply np_required || apply np_rp_build|intros]). apply np_validated, np_register.
Qed.
Lemma np_cluster_build l b : no_panic (cluster_build l b).
Proof.
  unfold cluster_build. repeat (apply np_bind; [apply np_required || apply np_rp_build|intros]). apply np_validated, np_cluster.
Qed.
Lemma np_peripheral_build l b : no_panic (peripheral_build l b).
Proof.
  unfold peripheral_build. repeat (apply np_bind; [apply np_required || apply np_rp_build|intros]). apply np_validated, np_peripheral.
Qed.
Lemma np_device_build l b : no_panic (device_build l b).
Proof.
  unfold device_build. repeat (apply np_bind; [apply np_required || apply np_rp_build|intros]). apply np_validated, np_device.
Qed.
Lemma np_ab_build l b : no_panic (ab_build l b).
Proof. unfold ab_build. repeat (apply np_bind; [apply np_required|intros]). apply np_validated, np_ok. Qed.
Lemma np_it_build l b : no_panic (it_build l b).
Proof. unfold it_build. repeat (apply np_bind; [apply np_required|intros]). apply np_validated, np_ok. Qed.
Lemma np_cpu_build l b : no_panic (cpu_build l b).
Proof. unfold cpu_build. repeat (apply np_bind; [apply np_required|intros]). apply np_validated, np_ok. Qed.
(** A field given with its bit range. *)
Lemma np_field_build l b r : fb_bit_range b = Some r -> no_panic (field_build l b).
Proof.
  intros E. unfold field_build. apply np_bind; [apply np_required|intros]. rewrite E.
  apply np_bind; [apply np_ok || apply np_required || apply np_ok_or|intros]. apply np_validated, np_field.
Qed.

Lemma np_get_text n : no_panic (get_text n).
Proof. destruct (get_text_cases n) as [[s ->] | ->]; [apply np_ok|apply np_err]. Qed.
Lemma np_get_child_text_opt k n : no_panic (get_child_text_opt k n).
Proof.
  unfold get_child_text_opt. destruct (get_child k n) as [c|]; [|apply np_ok].
  destruct (get_text_cases c) as [[s ->] | ->]; apply np_ok.
Qed.
Lemma np_get_child_text k n : no_panic (get_child_text k n).
Proof. unfold get_child_text. apply np_bind; [apply np_get_child_text_opt|intros; apply np_ok_or]. Qed.
Lemma np_get_child_elem k n : no_panic (get_child_elem k n). Proof. apply np_ok_or. Qed.
Lemma np_num_parse b n : no_panic (num_parse b n). Proof. intros p. apply num_parse_no_panic. Qed.
Lemma np_parse_bool s : no_panic (parse_bool s).
Proof. unfold parse_bool. repeat match goal with |- no_panic (if ?b then _ else _) => destruct b end; apply np_ok || apply np_err. Qed.
Lemma np_bool_parse n : no_panic (bool_parse n).
Proof. unfold bool_parse. apply np_bind; [apply np_get_text|intros; apply np_parse_bool]. Qed.
Lemma np_child_u32 k n : no_panic (get_child_u32 k n).
Proof. unfold get_child_u32. apply np_bind; [apply np_get_child_elem|intros; apply np_num_parse]. Qed.
Lemma np_child_u64 k n : no_panic (get_child_u64 k n).
Proof. unfold get_child_u64. apply np_bind; [apply np_get_child_elem|intros; apply np_num_parse]. Qed.
Lemma np_child_bool k n : no_panic (get_child_bool k n).
Proof. unfold get_child_bool. apply np_bind; [apply np_get_child_elem|intros; apply np_bool_parse]. Qed.
Lemma np_optional {A} (f : xml -> res A) k n : (forall c, no_panic (f c)) -> no_panic (optional f k n).
Proof. intros H. unfold optional, mapM_opt, rmap. destruct (get_child k n); [|apply np_ok]. apply np_bind; [apply H|intros; apply np_ok]. Qed.
Lemma np_collect {A} p (f : xml -> res A) l : (forall n, no_panic (f n)) -> no_panic (collect p f l).
Proof.
  intros H. induction l as [|n l IH]; cbn; [apply np_ok|]. destruct (p n); [|exact IH].
  apply np_bind; [apply H|intros]. apply np_bind; [exact IH|intros; apply np_ok].
Qed.
Lemma np_enum {A} (f : string -> option A) e n : no_panic (enum_parse f e n).
Proof. unfold enum_parse. apply np_bind; [apply np_get_text|intros; apply np_ok_or]. Qed.
Lemma np_ok_of {A} (r : res A) : no_panic r -> no_panic (ok_of r).
Proof. intros H p. destruct r; cbn; try discriminate. intros E. now apply (H p0). Qed.
Lemma np_expect t n : no_panic (expect_tag t n). Proof. apply np_check. Qed.

Ltac nps := repeat first
  [ apply np_get_child_text | apply np_get_child_text_opt | apply np_get_child_elem | apply np_child_u32
  | apply np_child_u64 | apply np_child_bool | apply np_expect | apply np_enum | apply np_num_parse
  | apply np_bool_parse | apply np_get_text | apply np_ok | apply np_err | apply np_check | apply np_ok_or
  | apply np_rp_build | apply np_ev_build | apply np_evs_build | apply np_de_build | apply np_register_build
  | apply np_cluster_build | apply np_peripheral_build | apply np_device_build | apply np_ab_build
  | apply np_it_build | apply np_cpu_build
  | apply np_optional; intros ? | apply np_collect; intros ? | apply np_ok_of
  | match goal with |- no_panic (bind _ _) => apply np_bind; [|intros ?] end ].

Lemma np_rp_parse cfg n : no_panic (rp_parse cfg n). Proof. unfold rp_parse. nps. Qed.
Lemma np_ev_item cfg n : no_panic (ev_item cfg n).
Proof. unfold ev_item. destruct (has_tag _ n); [unfold ev_parse|]; nps. Qed.
Lemma np_evs_parse cfg n : no_panic (evs_parse cfg n).
Proof. unfold evs_parse. nps. apply np_ev_item. Qed.
Lemma np_dai_parse cfg n : no_panic (dai_parse cfg n).
Proof. unfold dai_parse. nps. apply np_ev_item. Qed.
Lemma np_de_parse cfg n : no_panic (de_parse cfg n).
Proof. unfold de_parse, dim_index_parse. nps. unfold dai_parse. nps. apply np_ev_item. Qed.
Lemma np_ab_parse cfg n : no_panic (ab_parse cfg n). Proof. unfold ab_parse. nps. Qed.
Lemma np_it_parse cfg n : no_panic (it_parse cfg n). Proof. unfold it_parse. nps. Qed.
Lemma np_cpu_parse cfg n : no_panic (cpu_parse cfg n). Proof. unfold cpu_parse. nps. Qed.

Lemma wc_only n p : wc_parse n = Panic p -> p = Unwrap /\ forall t b k, ~ In (Elem t b k) (children n).
Proof.
  unfold wc_parse. destruct (filter is_element (children n)) as [|c [|c' l]] eqn:F; [| |discriminate].
  - intros H. injection H as <-. split; [reflexivity|]. intros t b k I.
    assert (In (Elem t b k) (filter is_element (children n))) as J by (apply filter_In; auto). rewrite F in J. destruct J.
  - assert (G : no_panic (if seqb (tag c) "writeAsRead" then rmap WriteAsRead (get_child_bool (tag c) n)
        else if seqb (tag c) "useEnumeratedValues" then rmap UseEnumeratedValues (get_child_bool (tag c) n)
        else if seqb (tag c) "range" then let* e := get_child_elem (tag c) n in wc_range_parse e
        else Err EUnknownWriteConstraint)).
    { unfold rmap, wc_range_parse. repeat match goal with |- no_panic (if ?b then _ else _) => destruct b end; nps. }
    intros H. now apply G in H.
Qed.

Lemma within_children k n c : get_child k n = Some c -> In c (children n) /\ named k c.
Proof.
  intros H. apply find_first_some in H as (l1 & l2 & E & T & _). apply has_tag_named in T. split; [|exact T].
  rewrite E. apply in_or_app. cbn; auto.
Qed.
Lemma blame_child m n c p : In c (children n) -> blame m c p -> blame m n p.
Proof.
  destruct n as [t a l| |]; cbn; [|tauto..]. intros I [(E & x & W & H)|(E & D & x & W & H)]; [left|right]; conjs; auto;
    exists x; split; auto; econstructor; eauto.
Qed.
Lemma blame_children m k n c p : get_child k n = Some c -> blame m c p -> blame m n p.
Proof. intros H. apply within_children in H as [I _]. now apply blame_child. Qed.

Lemma blame_wc m n c p : get_child "writeConstraint" n = Some c -> wc_parse c = Panic p -> blame m n p.
Proof.
  intros G H. apply wc_only in H as [-> H]. apply (blame_children m _ _ _ _ G). apply within_children in G as [_ (a & l & ->)].
  left. split; [reflexivity|]. exists (Elem "writeConstraint" a l). split; [constructor|]. exists a, l. auto.
Qed.

Lemma only_field_info m cfg n : only (blame m n) (field_info_parse m cfg n).
Proof.
  unfold field_info_parse. apply only_bind; [apply only_np; nps|]. intros [] T. apply check_ok in T.
  apply only_bind.
  { intros p H. apply bits_panic in H as (-> & -> & W). right. conjs; auto. exists n. split; [constructor|].
    split; [now apply has_tag_named|exact W]. }
  intros bits _. do 4 (apply only_bind; [apply only_np; nps|intros ? _]).
  apply only_bind.
  { destruct (negb _); [|apply only_np; nps]. apply only_optional. intros c G p H. eapply blame_wc; eauto. }
  intros wc _. apply only_bind; [apply only_np; nps|intros ? _]. apply only_bind; [|intros ? _].
  { apply only_np. destruct (negb _); nps. apply np_evs_parse. }
  apply only_np. eapply np_field_build. reflexivity.
Qed.
Lemma only_parse_array {A} cfg t (name : A -> string) f S n : only S (f n) -> only S (parse_array cfg t name f n).
Proof.
  intros H. unfold parse_array. apply only_bind; [apply only_np; nps|intros _ _]. apply only_bind; [exact H|intros i _].
  apply only_np. destruct (is_some _); nps; [apply np_de_parse|].
  match goal with |- no_panic (match de_index ?d with _ => _ end) => destruct (de_index d) end; nps.
Qed.
Lemma only_register_info m cfg n : only (blame m n) (register_info_parse m cfg n).
Proof.
  unfold register_info_parse. do 9 (apply only_bind; [apply only_np; solve [nps | apply np_rp_parse]|intros ? _]).
  apply only_bind.
  { apply only_optional. intros c G p H. eapply blame_wc; eauto. }
  intros wc _. apply only_bind; [apply only_np; nps|intros ? _]. apply only_bind; [|intros ? _; apply only_np; nps].
  unfold mapM_opt. destruct (get_child "fields" n) as [fs|] eqn:G; [|apply only_np; nps].
  apply only_rmap. apply only_collect. intros c I _. unfold field_parse. apply only_parse_array.
  intros p H. apply only_field_info in H. apply (blame_children m _ _ _ _ G). now apply (blame_child m fs c).
Qed.
Lemma only_cluster_info cfg S kids n : only S kids -> only S (cluster_info_parse cfg kids n).
Proof.
  intros K. unfold cluster_info_parse. do 6 (apply only_bind; [apply only_np; solve [nps | apply np_rp_parse]|intros ? _]).
  apply only_bind; [exact K|intros ? _]. apply only_np; nps.
Qed.
Lemma only_rc m cfg n : only (blame m n) (rc_parse m cfg n).
Proof.
  induction n as [t a l IH|s|] using xml_tree_ind; [|apply only_np; nps..]. cbn [rc_parse tag].
  destruct (seqb t "register").
  - apply only_rmap. apply only_parse_array, only_register_info.
  - destruct (seqb t "cluster"); [|apply only_np; nps]. apply only_rmap, only_parse_array, only_cluster_info.
    apply only_collect. intros c I _ p H. rewrite Forall_forall in IH. apply (IH c I) in H.
    now apply (blame_child m (Elem t a l) c).
Qed.
Lemma only_peripheral_info m cfg n : only (blame m n) (peripheral_info_parse m cfg n).
Proof.
  unfold peripheral_info_parse.
  do 14 (apply only_bind; [apply only_np; solve [nps | apply np_rp_parse | nps; apply np_ab_parse | nps; apply np_it_parse]|intros ? _]).
  apply only_bind; [|intros ? _; apply only_np; nps].
  unfold mapM_opt. destruct (get_child "registers" n) as [fs|] eqn:G; [|apply only_np; nps].
  apply only_rmap. apply only_collect. intros c I _ p H. apply only_rc in H. apply (blame_children m _ _ _ _ G). now apply (blame_child m fs c).
Qed.
Lemma only_device m cfg n : only (blame m n) (device_parse m cfg n).
Proof.
  unfold device_parse.
  do 10 (apply only_bind; [apply only_np; solve [nps | apply np_rp_parse | nps; apply np_cpu_parse]|intros ? _]).
  apply only_bind; [apply only_np; nps|intros pe G].
  apply only_bind.
  { apply only_collect. intros c I _. unfold peripheral_parse. apply only_parse_array. intros p H. apply only_peripheral_info in H.
    unfold get_child_elem in G. destruct (get_child "peripherals" n) as [pe'|] eqn:G'; [|discriminate]. injection G as ->.
    apply (blame_children m _ _ _ _ G'). now apply (blame_child m pe c). }
  intros ps _. apply only_np. nps.
Qed.
