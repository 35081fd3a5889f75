(** The two kinds of build agree but for overflow. *)
From Verif Require Import Base Num Types Names Validate Builders Derive Arrays Config Sort Xml Encode Parse Expand Top Serde Show ParseAt SpecMode TreeFacts ParseProofs SerdeMore.
Open Scope N_scope.

Lemma sb_refl {A} (a : res A) : same_build a a.
Proof. now right. Qed.
Lemma sb_bind {A B} (a b : res A) (f g : A -> res B) : same_build a b -> (forall x, same_build (f x) (g x)) ->
  same_build (bind a f) (bind b g).
Proof.
  intros [->| ->] H; [now left|]. destruct a as [x|e|p]; cbn; [apply H|now right|now right].
Qed.
Lemma sb_rmap {A B} (h : A -> B) a b : same_build a b -> same_build (rmap h a) (rmap h b).
Proof. intros H. apply sb_bind; [exact H|intros; apply sb_refl]. Qed.
Lemma sb_mapM {A B} (f g : A -> res B) l : (forall x, In x l -> same_build (f x) (g x)) -> same_build (mapM f l) (mapM g l).
Proof.
  induction l as [|x l IH]; intros H; [apply sb_refl|]. cbn. apply sb_bind; [apply H; now left|intros y].
  apply sb_bind; [apply IH; intros z Z; apply H; now right|intros; apply sb_refl].
Qed.
Lemma sb_concatM {A B} (f g : A -> res (list B)) l : (forall x, In x l -> same_build (f x) (g x)) ->
  same_build (concatM f l) (concatM g l).
Proof.
  induction l as [|x l IH]; intros H; [apply sb_refl|]. cbn. apply sb_bind; [apply H; now left|intros y].
  apply sb_bind; [apply IH; intros z Z; apply H; now right|intros; apply sb_refl].
Qed.
Lemma sb_mapM_opt {A B} (f g : A -> res B) o : (forall x, o = Some x -> same_build (f x) (g x)) ->
  same_build (mapM_opt f o) (mapM_opt g o).
Proof. intros H. destruct o; [cbn; apply sb_bind; [now apply H|intros; apply sb_refl]|apply sb_refl]. Qed.
Lemma sb_collect {A} q (f g : xml -> res A) l : (forall x, In x l -> same_build (f x) (g x)) ->
  same_build (collect q f l) (collect q g l).
Proof.
  induction l as [|x l IH]; intros H; [apply sb_refl|]. cbn. destruct (q x).
  - apply sb_bind; [apply H; now left|intros y].
    apply sb_bind; [apply IH; intros z Z; apply H; now right|intros; apply sb_refl].
  - apply IH; intros z Z; apply H; now right.
Qed.

(** *** Arithmetic *)
Lemma sb_add w a b : same_build (add_w w Debug a b) (add_w w Release a b).
Proof. unfold add_w. destruct (N.ltb _ _); [now right|now left]. Qed.
Lemma sb_sub w a b : same_build (sub_w w Debug a b) (sub_w w Release a b).
Proof. unfold sub_w. destruct (N.leb _ _); [now right|now left]. Qed.
Lemma sb_mul w a b : same_build (mul_w w Debug a b) (mul_w w Release a b).
Proof. unfold mul_w. destruct (N.ltb _ _); [now right|now left]. Qed.
Lemma sb_shl a s : same_build (shl64 Debug a s) (shl64 Release a s).
Proof. unfold shl64. destruct (N.ltb _ _); [now right|now left]. Qed.
Lemma sb_shr a s : same_build (shr64 Debug a s) (shr64 Release a s).
Proof. unfold shr64. destruct (N.ltb _ _); [now right|now left]. Qed.
Lemma sb_neg n : same_build (neg_i32 Debug n) (neg_i32 Release n).
Proof. unfold neg_i32. destruct (Z.eqb _ _); [now left|now right]. Qed.

Ltac sb :=
  repeat first
    [ match goal with |- same_build ?a ?a => exact (sb_refl a) end
    | assumption
    | simple apply sb_add | simple apply sb_sub | simple apply sb_mul | simple apply sb_shl | simple apply sb_shr
    | simple apply sb_neg
    | solve [auto 1 with sb nocore]
    | match goal with
      | |- same_build (bind _ _) (bind _ _) => simple apply sb_bind; [|intros ?]
      | |- same_build (rmap _ _) (rmap _ _) => simple apply sb_rmap
      | |- same_build (mapM _ _) (mapM _ _) => simple apply sb_mapM; intros ? _
      | |- same_build (concatM _ _) (concatM _ _) => simple apply sb_concatM; intros ? _
      | |- same_build (mapM_opt _ _) (mapM_opt _ _) => simple apply sb_mapM_opt; intros ? _
      | |- same_build (collect _ _ _) (collect _ _ _) => simple apply sb_collect; intros ? _
      | |- same_build (match ?x with _ => _ end) _ => destruct x
      end ].
Create HintDb sb.

(** *** svd-rs *)
Lemma sb_br_msb b : same_build (br_msb Debug b) (br_msb Release b).
Proof. unfold br_msb, add32, sub32. sb. Qed.
#[global] Hint Resolve sb_br_msb : sb.
Lemma sb_br_text b : same_build (br_text Debug b) (br_text Release b).
Proof. unfold br_text. sb. Qed.
Lemma sb_br_from_msb_lsb h l : same_build (br_from_msb_lsb Debug h l) (br_from_msb_lsb Release h l).
Proof. unfold br_from_msb_lsb, add32, sub32. sb. Qed.
Lemma sb_br_from_bit_range t : same_build (br_from_bit_range Debug t) (br_from_bit_range Release t).
Proof. unfold br_from_bit_range, add32, sub32. sb. Qed.
Lemma sb_indexes d : same_build (indexes_as_range Debug d) (indexes_as_range Release d).
Proof. unfold indexes_as_range, add32, sub32. sb. Qed.
Lemma sb_offset_at b d i : same_build (offset_at Debug b d i) (offset_at Release b d i).
Proof. unfold offset_at, add32, mul32. sb. Qed.
Lemma sb_base_at b d i : same_build (base_at Debug b d i) (base_at Release b d i).
Proof. unfold base_at, add64, mul64. sb. Qed.
#[global] Hint Resolve sb_br_text sb_br_from_msb_lsb sb_br_from_bit_range sb_indexes sb_offset_at sb_base_at : sb.
Lemma sb_field_expand f d : same_build (field_expand Debug f d) (field_expand Release f d).
Proof. unfold field_expand, field_instance. sb. Qed.
Lemma sb_register_expand f d : same_build (register_expand Debug f d) (register_expand Release f d).
Proof. unfold register_expand, register_instance. sb. Qed.
Lemma sb_cluster_instance f d i : same_build (cluster_instance Debug f d i) (cluster_instance Release f d i).
Proof. unfold cluster_instance. sb. Qed.
#[global] Hint Resolve sb_cluster_instance : sb.
Lemma sb_cluster_expand f d : same_build (cluster_expand Debug f d) (cluster_expand Release f d).
Proof. unfold cluster_expand. sb. Qed.
Lemma sb_peripheral_expand f d : same_build (peripheral_expand Debug f d) (peripheral_expand Release f d).
Proof. unfold peripheral_expand, peripheral_instance. sb. Qed.
Lemma sb_field_info_bitmask f : same_build (field_info_bitmask Debug f) (field_info_bitmask Release f).
Proof. unfold field_info_bitmask, sub32. sb. Qed.
#[global] Hint Resolve sb_field_expand sb_register_expand sb_cluster_expand sb_peripheral_expand sb_field_info_bitmask : sb.
Lemma sb_bitmask_loop k n l : forall b, same_build (bitmask_loop Debug k n l b) (bitmask_loop Release k n l b).
Proof. induction l as [|i l IH]; intros b; cbn [bitmask_loop]; unfold mul32; sb. Qed.
#[global] Hint Resolve sb_bitmask_loop : sb.
Lemma sb_field_bitmask f : same_build (field_bitmask Debug f) (field_bitmask Release f).
Proof. unfold field_bitmask. sb. Qed.
#[global] Hint Resolve sb_field_bitmask : sb.
Lemma sb_register_bitmask r : same_build (register_bitmask Debug r) (register_bitmask Release r).
Proof.
  unfold register_bitmask. generalize 0. induction (r_fields_iter r) as [|f l IH]; intros n; cbn [register_bitmask_loop]; sb.
Qed.

(** *** The encoder *)
Lemma sb_sort_items {A} (off : A -> N) nm s l : same_build (sort_items Debug off nm s l) (sort_items Release off nm s l).
Proof. unfold sort_items, sort_by_key. sb. Qed.
#[global] Hint Resolve sb_sort_items : sb.
Lemma sb_sort_derivable {A} (off : A -> N) nm dv s l :
  same_build (sort_derivable Debug off nm dv s l) (sort_derivable Release off nm dv s l).
Proof. unfold sort_derivable. sb. Qed.
#[global] Hint Resolve sb_sort_derivable : sb.
Lemma sb_sort_registers s l : same_build (sort_registers Debug s l) (sort_registers Release s l).
Proof. unfold sort_registers, rc_sort, sort_rcs. sb. Qed.
#[global] Hint Resolve sb_sort_registers : sb.
Section Encoder.
  Variable conv : id_format -> string -> string.
  Variable cfg : config.
  Lemma sb_bits_encode b : same_build (bit_range_encode Debug cfg b) (bit_range_encode Release cfg b).
  Proof. unfold bit_range_encode. sb. Qed.
  Lemma sb_de_encode d : same_build (de_encode Debug conv cfg d) (de_encode Release conv cfg d).
  Proof. unfold de_encode. sb. Qed.
  #[local] Hint Resolve sb_bits_encode sb_de_encode : sb.
  Lemma sb_ma_encode {A} t (f g : A -> res xml) x : (forall i, same_build (f i) (g i)) ->
    same_build (ma_encode Debug conv cfg t f x) (ma_encode Release conv cfg t g x).
  Proof. intros H. unfold ma_encode. sb. Qed.
  Lemma sb_field_encode f : same_build (field_encode Debug conv cfg f) (field_encode Release conv cfg f).
  Proof. apply sb_ma_encode. intros i. unfold field_info_encode. sb. Qed.
  #[local] Hint Resolve sb_field_encode : sb.
  Lemma sb_register_encode f : same_build (register_encode Debug conv cfg f) (register_encode Release conv cfg f).
  Proof. apply sb_ma_encode. intros i. unfold register_info_encode, sort_fields. sb. Qed.
  Lemma sb_rc_encode rc : same_build (rc_encode Debug conv cfg rc) (rc_encode Release conv cfg rc).
  Proof.
    induction rc as [r|c IH] using rc_tree_ind; cbn [rc_encode]; [apply sb_register_encode|].
    apply sb_ma_encode. intros i. unfold cluster_info_encode. apply sb_bind; [|intros; apply sb_refl].
    apply sb_mapM. now apply Forall_forall.
  Qed.
  #[local] Hint Resolve sb_rc_encode : sb.
  Lemma sb_peripheral_encode p : same_build (peripheral_encode Debug conv cfg p) (peripheral_encode Release conv cfg p).
  Proof. apply sb_ma_encode. intros i. unfold peripheral_info_encode. sb. Qed.
  #[local] Hint Resolve sb_peripheral_encode : sb.
  Lemma sb_device_encode d : same_build (device_encode Debug conv cfg d) (device_encode Release conv cfg d).
  Proof. unfold device_encode, sort_peripherals. sb. Qed.
End Encoder.

(** *** Expansion *)
Section Expansion.
  Variable ix : index.
  Lemma sb_expand_field k q f : same_build (expand_field Debug ix k q f) (expand_field Release ix k q f).
  Proof. unfold expand_field. cbv zeta. sb. Qed.
  #[local] Hint Resolve sb_expand_field : sb.
  Lemma sb_expand_register k q f : same_build (expand_register_array Debug ix k q f) (expand_register_array Release ix k q f).
  Proof. unfold expand_register_array. cbv zeta. sb. Qed.
  #[local] Hint Resolve sb_expand_register : sb.
  Lemma sb_expand_cluster c : same_build (expand_cluster Debug c) (expand_cluster Release c).
  Proof. unfold expand_cluster, add32. sb. Qed.
  #[local] Hint Resolve sb_expand_cluster : sb.
  Lemma sb_expand_rc k : forall q rc, same_build (expand_rc Debug ix k q rc) (expand_rc Release ix k q rc).
  Proof. induction k as [|k IH]; intros q rc; cbn [expand_rc]; cbv zeta; sb. Qed.
  #[local] Hint Resolve sb_expand_rc : sb.
  Lemma sb_expand_peripheral k p : same_build (expand_peripheral Debug ix k p) (expand_peripheral Release ix k p).
  Proof. unfold expand_peripheral. cbv zeta. sb. Qed.
End Expansion.
#[global] Hint Resolve sb_expand_peripheral : sb.
Lemma sb_expand k d : same_build (expand Debug k d) (expand Release k d).
Proof. unfold expand. sb. Qed.
#[global] Hint Resolve sb_expand : sb.

(** *** The parser *)
Section Parser.
  Variable cfg : pconfig.
  Lemma sb_bits_parse n : same_build (bit_range_parse Debug n) (bit_range_parse Release n).
  Proof. unfold bit_range_parse, bit_range_of, sub32, add32. sb. Qed.
  #[local] Hint Resolve sb_bits_parse : sb.
  Lemma sb_parse_array {A} t nm (f g : xml -> res A) n : same_build (f n) (g n) ->
    same_build (parse_array cfg t nm f n) (parse_array cfg t nm g n).
  Proof. intros H. unfold parse_array. sb. Qed.
  Lemma sb_field_parse n : same_build (field_parse Debug cfg n) (field_parse Release cfg n).
  Proof. apply sb_parse_array. unfold field_info_parse. sb. Qed.
  #[local] Hint Resolve sb_field_parse : sb.
  Lemma sb_register_parse n : same_build (register_parse Debug cfg n) (register_parse Release cfg n).
  Proof. apply sb_parse_array. unfold register_info_parse. sb. Qed.
  #[local] Hint Resolve sb_register_parse : sb.
  Lemma sb_rc_parse n : same_build (rc_parse Debug cfg n) (rc_parse Release cfg n).
  Proof.
    induction n as [t a l IH|s|] using xml_tree_ind; cbn [rc_parse]; [|apply sb_refl..].
    destruct (seqb _ "register"); [apply sb_rmap, sb_register_parse|]. destruct (seqb _ "cluster"); [|apply sb_refl].
    apply sb_rmap, sb_parse_array. unfold cluster_info_parse.
    assert (H : same_build (collect is_rc (rc_parse Debug cfg) l) (collect is_rc (rc_parse Release cfg) l))
      by (apply sb_collect; now apply Forall_forall).
    do 6 (apply sb_bind; [apply sb_refl|intros ?]). apply sb_bind; [exact H|intros; apply sb_refl].
  Qed.
  #[local] Hint Resolve sb_rc_parse : sb.
  Lemma sb_peripheral_parse n : same_build (peripheral_parse Debug cfg n) (peripheral_parse Release cfg n).
  Proof. apply sb_parse_array. unfold peripheral_info_parse. sb. Qed.
  #[local] Hint Resolve sb_peripheral_parse : sb.
  Lemma sb_device_parse n : same_build (device_parse Debug cfg n) (device_parse Release cfg n).
  Proof. unfold device_parse. cbv zeta. sb. Qed.
End Parser.
#[global] Hint Resolve sb_device_parse : sb.
Lemma sb_parse k document cfg s :
  same_build (parse_with_config Debug k document cfg s) (parse_with_config Release k document cfg s).
Proof. unfold parse_with_config. cbv zeta. sb. Qed.

(** *** Serde *)
Lemma sb_ma_put {A} (f g : A -> res entries) x : (forall i, same_build (f i) (g i)) -> same_build (ma_put f x) (ma_put g x).
Proof. intros H. unfold ma_put. sb. Qed.
Lemma sb_field_put f : same_build (field_put Debug f) (field_put Release f).
Proof. unfold field_put, br_put. sb. Qed.
Lemma sb_register_put r : same_build (register_put Debug r) (register_put Release r).
Proof. unfold register_put. sb. apply sb_ma_put. intros. apply sb_field_put. Qed.
Lemma sb_rc_put rc : same_build (rc_put Debug rc) (rc_put Release rc).
Proof.
  induction rc as [r|c IH] using rc_tree_ind; cbn [rc_put].
  - apply sb_bind; [|intros; apply sb_refl]. apply sb_ma_put. intros. apply sb_register_put.
  - apply sb_bind; [|intros; apply sb_refl]. unfold ma_put.
    assert (H : forall i, c_children i = c_children (info c) -> same_build (cluster_put (rc_put Debug) i) (cluster_put (rc_put Release) i)).
    { intros i E. unfold cluster_put. apply sb_bind; [|intros; apply sb_refl]. rewrite E. apply sb_mapM. now apply Forall_forall. }
    destruct c; (apply sb_bind; [now apply H|intros; apply sb_refl]).
Qed.
#[global] Hint Resolve sb_rc_put : sb.
Lemma sb_peripheral_put p : same_build (peripheral_put Debug p) (peripheral_put Release p).
Proof. unfold peripheral_put. sb. Qed.
Lemma sb_device_put d : same_build (device_put Debug d) (device_put Release d).
Proof. unfold device_put. sb. apply sb_ma_put. intros. apply sb_peripheral_put. Qed.

Lemma sb_entry {A} k (f g : data -> res A) es : (forall v, In (k, v) es -> same_build (f v) (g v)) ->
  same_build (entry k f es) (entry k g es).
Proof.
  induction es as [|[k' v] es IH]; intros H; cbn [entry]; [apply sb_refl|]. destruct (seqb k' k) eqn:E.
  - apply String.eqb_eq in E. subst k'. apply sb_bind; [apply H; now left|intros; apply sb_refl].
  - apply IH. intros w W. apply H. now right.
Qed.
Lemma sb_need {A} k (f g : data -> res A) es : (forall v, In (k, v) es -> same_build (f v) (g v)) ->
  same_build (need k f es) (need k g es).
Proof. intros H. unfold need. apply sb_bind; [now apply sb_entry|intros; apply sb_refl]. Qed.
Lemma sb_take_opt {A} k (f g : data -> res A) es : (forall v, In (k, v) es -> same_build (f v) (g v)) ->
  same_build (take_opt k f es) (take_opt k g es).
Proof.
  intros H. unfold take_opt. apply sb_bind; [|intros; apply sb_refl]. apply sb_entry. intros v V. apply H in V.
  destruct v; cbn [opt]; try apply sb_refl; (apply sb_bind; [exact V|intros; apply sb_refl]).
Qed.
Lemma sb_seq_of {A} (f g : data -> res A) v : (forall l x, v = DSeq l -> In x l -> same_build (f x) (g x)) ->
  same_build (seq_of f v) (seq_of g v).
Proof. intros H. destruct v; try apply sb_refl. cbn. apply sb_mapM. intros x X. eapply H; [reflexivity|exact X]. Qed.
Lemma sb_ma_get {A} (f g : entries -> res A) v : (forall es, v = DMap es -> same_build (f es) (g es)) ->
  same_build (ma_get f v) (ma_get g v).
Proof.
  intros H. unfold ma_get, struct. destruct v; [apply sb_refl..|]. specialize (H _ eq_refl).
  destruct (de_get es); try apply sb_refl; (apply sb_bind; [exact H|intros; apply sb_refl]).
Qed.
Lemma sb_field_get es : same_build (field_get Debug es) (field_get Release es).
Proof. unfold field_get, br_get. sb. Qed.
Lemma sb_register_get es : same_build (register_get Debug es) (register_get Release es).
Proof.
  unfold register_get. do 11 (apply sb_bind; [apply sb_refl|intros ?]). apply sb_bind; [|intros; apply sb_refl].
  apply sb_take_opt. intros zv _. apply sb_seq_of. intros zl z _ _. apply sb_ma_get. intros zes _. apply sb_field_get.
Qed.
Lemma sb_rc_get v : same_build (rc_get Debug v) (rc_get Release v).
Proof.
  induction v as [v IH] using rc_data_ind. rewrite !rc_get_eq.
  destruct v as [| | | | |es]; [apply sb_refl..|]. destruct es as [|[k w] es]; [apply sb_refl|].
  destruct es; [|apply sb_refl]. unfold rc_tagged. destruct (seqb k "register").
  - apply sb_bind; [|intros; apply sb_refl]. apply sb_ma_get. intros es _. apply sb_register_get.
  - destruct (seqb k "cluster"); [|apply sb_refl]. apply sb_bind; [|intros; apply sb_refl].
    apply sb_ma_get. intros es ->. unfold cluster_get. do 6 (apply sb_bind; [apply sb_refl|intros ?]).
    apply sb_bind; [|intros; apply sb_refl]. apply sb_need. intros zv V. apply sb_seq_of. intros zl z -> X.
    eapply IH; [reflexivity|exact V|exact X].
Qed.
Lemma sb_peripheral_get es : same_build (peripheral_get Debug es) (peripheral_get Release es).
Proof.
  unfold peripheral_get. do 13 (apply sb_bind; [apply sb_refl|intros ?]). apply sb_bind; [|intros; apply sb_refl].
  apply sb_take_opt. intros zv _. apply sb_seq_of. intros zl z _ _. apply sb_rc_get.
Qed.
Lemma sb_device_get v : same_build (device_get Debug v) (device_get Release v).
Proof.
  unfold device_get, struct. destruct v; [apply sb_refl..|].
  do 13 (apply sb_bind; [apply sb_refl|intros ?]). apply sb_bind; [|intros; apply sb_refl].
  apply sb_need. intros zv _. apply sb_seq_of. intros zl z _ _. apply sb_ma_get. intros zes _. apply sb_peripheral_get.
Qed.

(** *** Messages *)
Lemma sb_show e : same_build (show Debug e) (show Release e).
Proof. destruct e; try apply sb_refl. cbn [show]. apply sb_bind; [apply sb_sub|intros; apply sb_refl]. Qed.

(** *** The parser with places *)
Definition same_build_at {A} (debug release : lres A) : Prop := debug = LPanic Overflow \/ release = debug.
Lemma sl_refl {A} (a : lres A) : same_build_at a a.
Proof. now right. Qed.
Lemma sl_bind {A B} (a b : lres A) (f g : A -> lres B) : same_build_at a b -> (forall x, same_build_at (f x) (g x)) ->
  same_build_at (lbind a f) (lbind b g).
Proof. intros [->| ->] H; [now left|]. destruct a as [x|e|p]; cbn; [apply H|now right|now right]. Qed.
Lemma sl_lmap {A B} (h : A -> B) a b : same_build_at a b -> same_build_at (lmap h a) (lmap h b).
Proof. intros H. apply sl_bind; [exact H|intros; apply sl_refl]. Qed.
Lemma sl_at {A} w (a b : res A) : same_build a b -> same_build_at (at_ w a) (at_ w b).
Proof. intros [->| ->]; [now left|now right]. Qed.
Lemma sl_collect {A} q (f g : place -> xml -> lres A) w l : forall i,
  (forall v x, In x l -> same_build_at (f v x) (g v x)) -> same_build_at (collect_at q f w i l) (collect_at q g w i l).
Proof.
  induction l as [|x l IH]; intros i H; [apply sl_refl|]. cbn. destruct (q x).
  - apply sl_bind; [apply H; now left|intros y].
    apply sl_bind; [apply IH; intros v z Z; apply H; now right|intros; apply sl_refl].
  - apply IH; intros v z Z; apply H; now right.
Qed.
Lemma sl_optional {A} (f g : place -> xml -> lres A) k w n :
  (forall v x, same_build_at (f v x) (g v x)) -> same_build_at (optional_at f k w n) (optional_at g k w n).
Proof. intros H. unfold optional_at. destruct (get_child_at k w n) as [[v x]|]; [apply sl_lmap, H|apply sl_refl]. Qed.
Ltac sl :=
  repeat first
    [ match goal with |- same_build_at ?a ?a => exact (sl_refl a) end
    | assumption
    | solve [auto 1 with sb nocore]
    | match goal with
      | |- same_build_at (lbind _ _) (lbind _ _) => simple apply sl_bind; [|intros ?]
      | |- same_build_at (lmap _ _) (lmap _ _) => simple apply sl_lmap
      | |- same_build_at (at_ _ _) (at_ _ _) => simple apply sl_at
      | |- same_build_at (collect_at _ _ _ _ _) (collect_at _ _ _ _ _) => simple apply sl_collect; intros ? ? _
      | |- same_build_at (optional_at _ _ _ _) (optional_at _ _ _ _) => simple apply sl_optional; intros ? ?
      | |- same_build_at (match ?x with _ => _ end) _ => destruct x
      end ].
Section ParserAt.
  Variable cfg : pconfig.
  Lemma sb_bit_range_of h l t : same_build (bit_range_of Debug h l t) (bit_range_of Release h l t).
  Proof. unfold bit_range_of, sub32, add32. sb. Qed.
  #[local] Hint Resolve sb_bit_range_of : sb.
  Lemma sl_bits w n : same_build_at (bit_range_at Debug w n) (bit_range_at Release w n).
  Proof. unfold bit_range_at. sl. Qed.
  #[local] Hint Resolve sl_bits : sb.
  Lemma sl_array {A} t nm (f g : place -> xml -> lres A) w n : same_build_at (f w n) (g w n) ->
    same_build_at (array_at cfg t nm f w n) (array_at cfg t nm g w n).
  Proof. intros H. unfold array_at. sl. Qed.
  Lemma sl_field w n : same_build_at (ParseAt.field_at Debug cfg w n) (ParseAt.field_at Release cfg w n).
  Proof. apply sl_array. unfold field_info_at. sl. Qed.
  #[local] Hint Resolve sl_field : sb.
  Lemma sl_register w n : same_build_at (ParseAt.register_at Debug cfg w n) (ParseAt.register_at Release cfg w n).
  Proof. apply sl_array. unfold register_info_at. sl. Qed.
  #[local] Hint Resolve sl_register : sb.
  Lemma sl_rc n : forall w, same_build_at (rc_at Debug cfg w n) (rc_at Release cfg w n).
  Proof.
    induction n as [t a l IH|s|] using xml_tree_ind; intros w; cbn [rc_at]; [|apply sl_refl..].
    destruct (seqb _ "register"); [apply sl_lmap, sl_register|]. destruct (seqb _ "cluster"); [|apply sl_refl].
    apply sl_lmap, sl_array. unfold cluster_info_at.
    assert (H : same_build_at (collect_at is_rc (rc_at Debug cfg) w 0 l) (collect_at is_rc (rc_at Release cfg) w 0 l))
      by (apply sl_collect; intros v x X; revert v; now apply (proj1 (Forall_forall _ _) IH)).
    do 6 (apply sl_bind; [apply sl_refl|intros ?]). apply sl_bind; [exact H|intros; apply sl_refl].
  Qed.
  #[local] Hint Resolve sl_rc : sb.
  Lemma sl_peripheral w n : same_build_at (peripheral_at Debug cfg w n) (peripheral_at Release cfg w n).
  Proof. apply sl_array. unfold peripheral_info_at. sl. Qed.
  #[local] Hint Resolve sl_peripheral : sb.
  Lemma sl_device w n : same_build_at (device_at Debug cfg w n) (device_at Release cfg w n).
  Proof. unfold device_at. cbv zeta. sl. Qed.
  Lemma sb_parse_document pos root : same_build (parse_document Debug cfg pos root) (parse_document Release cfg pos root).
  Proof.
    unfold parse_document. destruct (get_child_at "device" [] root) as [[w x]|]; [|apply sb_refl].
    destruct (sl_device w x) as [->| ->]; [now left|now right].
  Qed.
End ParserAt.
