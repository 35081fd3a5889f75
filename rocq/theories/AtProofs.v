(** C70: without the places, the located parser is the parser. *)
From Verif Require Import BaseFacts Num Types Names Validate Builders Arrays Xml Parse ParseProofs ParseAt.

Definition erase {A} (r : lres A) : res A := match r with LOk a => Ok a | LErr e _ => Err e | LPanic p => Panic p end.

Lemma erase_bind {A B} (r : lres A) (r' : res A) (f : A -> lres B) (f' : A -> res B) :
  erase r = r' -> (forall a, r = LOk a -> erase (f a) = f' a) -> erase (lbind r f) = bind r' f'.
Proof. intros <- H. destruct r; cbn; auto. Qed.
Lemma erase_map {A B} (g : A -> B) r r' : erase r = r' -> erase (lmap g r) = rmap g r'.
Proof. intros <-. now destruct r. Qed.
Lemma erase_at {A} w (r : res A) : erase (at_ w r) = r.
Proof. now destruct r. Qed.
Lemma find_at_eq q w i l : option_map snd (find_at q w i l) = find_first q l.
Proof. revert i. induction l as [|c l IH]; intros i; cbn; [reflexivity|]. destruct (q c); [reflexivity|apply IH]. Qed.
Lemma child_at_eq k w n : option_map snd (get_child_at k w n) = get_child k n.
Proof. apply find_at_eq. Qed.
Lemma child_at_some k w n v c : get_child_at k w n = Some (v, c) -> get_child k n = Some c.
Proof. intros H. rewrite <- (child_at_eq k w), H. reflexivity. Qed.
Lemma child_at_none k w n : get_child_at k w n = None -> get_child k n = None.
Proof. intros H. rewrite <- (child_at_eq k w), H. reflexivity. Qed.
Lemma erase_text w n : erase (get_text_at w n) = get_text n.
Proof. unfold get_text_at, get_text. now destruct (text n). Qed.
Lemma erase_text_opt k w n : erase (get_child_text_opt_at k w n) = get_child_text_opt k n.
Proof.
  unfold get_child_text_opt_at, get_child_text_opt. destruct (get_child_at k w n) as [[v c]|] eqn:E.
  - rewrite (child_at_some _ _ _ _ _ E), <- (erase_text v). destruct (get_text_at v c) as [s|e u|p]; cbn; auto. now destruct e.
  - now rewrite (child_at_none _ _ _ E).
Qed.
Lemma erase_child_text k w n : erase (get_child_text_at k w n) = get_child_text k n.
Proof. apply erase_bind; [apply erase_text_opt|]. intros. apply erase_at. Qed.
Lemma erase_elem {B} k w n (f : place * xml -> lres B) (f' : xml -> res B) : (forall v c, get_child_at k w n = Some (v, c) -> erase (f (v, c)) = f' c) ->
  erase (lbind (get_child_elem_at k w n) f) = bind (get_child_elem k n) f'.
Proof.
  intros H. unfold get_child_elem_at, get_child_elem. destruct (get_child_at k w n) as [[v c]|] eqn:E; cbn.
  - rewrite (child_at_some _ _ _ _ _ E). cbn. now apply H.
  - now rewrite (child_at_none _ _ _ E).
Qed.
Lemma erase_num b w n : erase (num_parse_at b w n) = num_parse b n.
Proof. apply erase_bind; [apply erase_text|]. intros. apply erase_at. Qed.
Lemma erase_bool w n : erase (bool_parse_at w n) = bool_parse n.
Proof. apply erase_bind; [apply erase_text|]. intros. apply erase_at. Qed.
Lemma erase_u32 k w n : erase (get_child_u32_at k w n) = get_child_u32 k n.
Proof. apply erase_elem. intros. apply erase_num. Qed.
Lemma erase_u64 k w n : erase (get_child_u64_at k w n) = get_child_u64 k n.
Proof. apply erase_elem. intros. apply erase_num. Qed.
Lemma erase_child_bool k w n : erase (get_child_bool_at k w n) = get_child_bool k n.
Proof. apply erase_elem. intros. apply erase_bool. Qed.
Lemma erase_optional {A} (f : place -> xml -> lres A) (f' : xml -> res A) k w n : (forall v c, erase (f v c) = f' c) ->
  erase (optional_at f k w n) = optional f' k n.
Proof.
  intros H. unfold optional_at, optional. destruct (get_child_at k w n) as [[v c]|] eqn:E.
  - rewrite (child_at_some _ _ _ _ _ E). now apply erase_map.
  - now rewrite (child_at_none _ _ _ E).
Qed.
Lemma erase_opt_child {A} (f : place -> xml -> lres A) (f' : xml -> res A) k w n : (forall v c, erase (f v c) = f' c) ->
  erase (optional_at f k w n) = mapM_opt f' (get_child k n).
Proof. apply erase_optional. Qed.
Lemma erase_collect {A} q (f : place -> xml -> lres A) (f' : xml -> res A) w i l : (forall v c, In c l -> erase (f v c) = f' c) ->
  erase (collect_at q f w i l) = collect q f' l.
Proof.
  revert i. induction l as [|n l IH]; intros i H; [reflexivity|]. cbn. destruct (q n).
  - apply erase_bind; [apply H; now left|]. intros. apply erase_bind; [apply IH; intros; apply H; now right|]. reflexivity.
  - apply IH. intros. apply H. now right.
Qed.
Lemma erase_check w b e : erase (lcheck w b e) = check b e.
Proof. apply erase_at. Qed.
Lemma erase_enum {A} (f : string -> option A) e w n : erase (enum_at f e w n) = enum_parse f e n.
Proof. apply erase_bind; [apply erase_text|]. intros. apply erase_at. Qed.
Lemma erase_ok_of {A} (r : lres A) r' : erase r = r' -> erase (lok_of r) = ok_of r'.
Proof. intros <-. now destruct r. Qed.
Lemma erase_relabel {A} e w (r : lres A) r' : erase r = r' -> erase (relabel e w r) = map_err e r'.
Proof. intros <-. now destruct r. Qed.
Lemma erase_expect t w n : erase (expect_at t w n) = expect_tag t n.
Proof. apply erase_check. Qed.

Ltac ers := repeat first
  [ apply erase_text_opt | apply erase_child_text | apply erase_u32 | apply erase_u64 | apply erase_child_bool | apply erase_num
  | apply erase_bool | apply erase_text | apply erase_at | apply erase_check | apply erase_enum | apply erase_expect
  | apply erase_ok_of | apply erase_relabel | reflexivity
  | apply erase_optional; intros | apply erase_opt_child; intros | apply erase_collect; intros
  | apply erase_elem; intros; cbn [fst snd] | apply erase_map
  | match goal with |- erase (lbind _ _) = bind _ _ => apply erase_bind; [|intros ? _] end ].

Lemma erase_rp cfg w n : erase (rp_at cfg w n) = rp_parse cfg n.
Proof. unfold rp_at, rp_parse. ers. Qed.
Lemma erase_wc_range w n : erase (wc_range_at w n) = wc_range_parse n.
Proof. unfold wc_range_at, wc_range_parse. ers. Qed.
Lemma erase_wc w n : erase (wc_at w n) = wc_parse n.
Proof.
  unfold wc_at, wc_parse. destruct (filter is_element (children n)) as [|c [|]]; [reflexivity| |reflexivity].
  repeat match goal with |- erase (if ?b then _ else _) = _ => destruct b end; ers. apply erase_wc_range.
Qed.
Lemma erase_bit_range m w n : erase (bit_range_at m w n) = bit_range_parse m n.
Proof.
  unfold bit_range_at, bit_range_parse. rewrite <- !(child_at_eq _ w).
  destruct (get_child_at "bitRange" w n) as [[v c]|]; cbn [option_map snd].
  - apply erase_bind; [apply erase_at|]. intros t _. destruct t as [|h rest]; [reflexivity|].
    destruct h as [[] [] [] [] [] [] [] []]; try reflexivity.
    destruct (last_char _) as [[[] [] [] [] [] [] [] []]|]; try reflexivity.
    destruct (split ":" (drop_last rest)) as [|a more]; [reflexivity|].
    apply erase_bind; [apply erase_at|]. intros. destruct more; [reflexivity|]. ers.
  - destruct (get_child_at "lsb" w n) as [[vl cl]|], (get_child_at "msb" w n) as [[vm cm]|]; cbn [option_map snd]; try solve [ers];
    destruct (get_child_at "bitOffset" w n) as [[vo co]|], (get_child_at "bitWidth" w n) as [[vw cw]|]; cbn [option_map snd]; ers.
Qed.
Lemma erase_ev cfg w n : erase (ev_at cfg w n) = ev_parse cfg n.
Proof. unfold ev_at, ev_parse. ers. Qed.
Lemma erase_ev_item cfg w n : erase (ev_item_at cfg w n) = ev_item cfg n.
Proof. unfold ev_item_at, ev_item. destruct (has_tag _ n); [apply erase_ev|reflexivity]. Qed.
Lemma erase_evs cfg w n : erase (evs_at cfg w n) = evs_parse cfg n.
Proof. unfold evs_at, evs_parse. ers. apply erase_ev_item. Qed.
Lemma erase_dai cfg w n : erase (dai_at cfg w n) = dai_parse cfg n.
Proof. unfold dai_at, dai_parse. ers. apply erase_ev_item. Qed.
Lemma erase_dim_index w n : erase (dim_index_at w n) = dim_index_parse n.
Proof. unfold dim_index_at, dim_index_parse. ers. Qed.
Lemma erase_de cfg w n : erase (de_at cfg w n) = de_parse cfg n.
Proof. unfold de_at, de_parse. ers; first [apply erase_dim_index|apply erase_dai]. Qed.
Lemma erase_array {A} cfg t (name : A -> string) f f' w n : erase (f w n) = f' n ->
  erase (array_at cfg t name f w n) = parse_array cfg t name f' n.
Proof.
  intros H. unfold array_at, parse_array. ers; [exact H|].
  rewrite <- (child_at_eq _ w). destruct (get_child_at "dimIncrement" w n); cbn [option_map is_some]; [|reflexivity].
  apply erase_bind; [apply erase_de|]. intros d _. apply erase_bind; [apply erase_check|]. intros _ _.
  apply erase_bind; [|reflexivity]. destruct (de_index d); [apply erase_check|reflexivity].
Qed.
Lemma erase_field_info m cfg w n : erase (field_info_at m cfg w n) = field_info_parse m cfg n.
Proof.
  unfold field_info_at, field_info_parse.
  apply erase_bind; [apply erase_expect|intros _ _]. apply erase_bind; [apply erase_bit_range|intros ? _].
  destruct (negb (pc_ignore_enums cfg)); ers; first [apply erase_wc|apply erase_evs].
Qed.
Lemma erase_field m cfg w n : erase (field_at m cfg w n) = field_parse m cfg n.
Proof. apply erase_array, erase_field_info. Qed.
Lemma erase_register_info m cfg w n : erase (register_info_at m cfg w n) = register_info_parse m cfg n.
Proof. unfold register_info_at, register_info_parse. ers; first [apply erase_rp|apply erase_wc|apply erase_field]. Qed.
Lemma erase_register m cfg w n : erase (register_at m cfg w n) = register_parse m cfg n.
Proof. apply erase_array, erase_register_info. Qed.
Lemma erase_cluster_info cfg kids kids' w n : erase kids = kids' -> erase (cluster_info_at cfg kids w n) = cluster_info_parse cfg kids' n.
Proof. intros H. unfold cluster_info_at, cluster_info_parse. ers; [apply erase_rp|exact H]. Qed.
Lemma erase_rc m cfg n : forall w, erase (rc_at m cfg w n) = rc_parse m cfg n.
Proof.
  induction n as [t a l IH|s|] using xml_tree_ind; intros w; try reflexivity. cbn [rc_at rc_parse tag].
  destruct (seqb t "register"); [apply erase_map, erase_register|]. destruct (seqb t "cluster"); [|reflexivity].
  apply erase_map. apply (erase_array cfg "cluster" c_name _ (cluster_info_parse cfg _)). apply erase_cluster_info.
  apply erase_collect. intros v c I. rewrite Forall_forall in IH. now apply IH.
Qed.
Lemma erase_ab cfg w n : erase (ab_at cfg w n) = ab_parse cfg n.
Proof. unfold ab_at, ab_parse. ers. Qed.
Lemma erase_it cfg w n : erase (it_at cfg w n) = it_parse cfg n.
Proof. unfold it_at, it_parse. ers. Qed.
Lemma erase_peripheral_info m cfg w n : erase (peripheral_info_at m cfg w n) = peripheral_info_parse m cfg n.
Proof. unfold peripheral_info_at, peripheral_info_parse. ers; first [apply erase_rp|apply erase_ab|apply erase_it|apply erase_rc]. Qed.
Lemma erase_peripheral m cfg w n : erase (peripheral_at m cfg w n) = peripheral_parse m cfg n.
Proof. apply erase_array, erase_peripheral_info. Qed.
Lemma erase_cpu cfg w n : erase (cpu_at cfg w n) = cpu_parse cfg n.
Proof. unfold cpu_at, cpu_parse. ers. Qed.
Lemma erase_device m cfg w n : erase (device_at m cfg w n) = device_parse m cfg n.
Proof. unfold device_at, device_parse. ers; first [apply erase_cpu|apply erase_rp|apply erase_peripheral]. Qed.
