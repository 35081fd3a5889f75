(** C50 and C62-C66: the serde form of devices; texts of bit ranges. *)
From Coq Require Import Permutation.
From Verif Require Import Base BaseFacts Num NumProofs Types Arrays Validate SpecNum SpecArray SpecBuild SpecValidate SpecParse SpecRound PropBits
  PropExpand PropRound BitProofs Serde SpecSerde SpecData SerdeProofs SerdeMore SerdePad.
Import ListNotations.

(** ** C50: writing and reading back *)
Theorem C50_round_trip : forall m m' d, device_in m d ->
  exists v, device_put m d = Ok v /\ device_get m' v = Ok (b_device d).
Proof. exact device_back. Qed.
Print Assumptions C50_round_trip.
Theorem C50_identity : forall m m' d, device_in m d -> device_listed d -> usual_header d ->
  exists v, device_put m d = Ok v /\ device_get m' v = Ok d.
Proof.
  intros m m' d H L U. destruct (device_back m m' d H) as (v & E & G). exists v. split; [exact E|]. now rewrite b_device_id in G.
Qed.
Print Assumptions C50_identity.
(** An index list comes back exactly if its texts contain neither commas nor dashes. *)
Theorem C50_indexes : forall l, dim_index_get (dim_index_put l) = Ok (Some l) <-> indexes_in l.
Proof. exact indexes_back. Qed.
Print Assumptions C50_indexes.
Lemma free_ofb c s : existsb (Ascii.eqb c) (list_ascii_of_string s) = false -> free_of c s.
Proof. intros H I. assert (X : existsb (Ascii.eqb c) (list_ascii_of_string s) = true) by (apply existsb_exists; exists c; split; [exact I|apply Ascii.eqb_refl]). congruence. Qed.
Ltac in_range := repeat match goal with
  | |- _ /\ _ => split
  | |- Forall _ [] => constructor
  | |- Forall _ (_ :: _) => constructor
  | |- True => exact I
  | |- rc_holds _ _ (RCRegister _) => constructor
  | |- rc_holds _ _ (RCCluster _) => constructor
  | |- _ < _ => reflexivity
  | |- _ <= _ => discriminate
  | |- free_of _ _ => apply free_ofb; reflexivity
  | |- _ <> _ => discriminate
  | |- _ -> _ => intros ?
  | |- _ => progress cbn
  | |- _ => progress unfold device_in, device_holds, peripheral_holds, register_holds, field_holds, any_holds, dim_holds, bits_in, indexes_in,
      props_in, cpu_in, cluster_in, block_fits, constraint_fits, values_in, value_in, opt_all, below
  end.
Lemma described_in : device_in Debug described.
Proof. unfold described. in_range. all: try congruence. Qed.
(** The same with the usual attributes at the root. *)
Definition headed : device := Eval vm_compute in b_device described.
Lemma headed_in : device_in Debug headed.
Proof. exact described_in. Qed.
Definition described_form : data := Eval vm_compute in match device_put Debug headed with Ok v => v | _ => DNull end.
Lemma described_listed : device_listed headed.
Proof. intros n a H. apply device_dim_in in H. cbn in H. repeat (destruct H as [<-|H]; [discriminate|]). destruct H. Qed.
Example C50_example : device_in Debug headed /\ device_listed headed /\ usual_header headed /\
  List.length (device_dims headed) = 2%nat /\
  device_put Debug headed = Ok described_form /\ device_get Release described_form = Ok headed.
Proof. conjs; [exact headed_in|exact described_listed|repeat split|vm_compute; reflexivity..]. Qed.
Example C50_example_indexes : indexes_in ["0"; "A"; "late B"]%string /\ ~ indexes_in ["0-1"]%string.
Proof.
  split; [in_range|]. intros (_ & _ & F). inversion F as [|? ? X]; subst. apply X. right. now left.
Qed.
(** Arrays that do not list their indexes come back as single elements. *)
Definition unlisted : device := Device None None "dev" None "1.0" "" None None None None 8 32 rp_default
  [Array (a_peripheral "T%s" 0 None None) (times 2 4096)] "http://www.w3.org/2001/XMLSchema-instance" "CMSIS-SVD_Schema_1_1.xsd" "1.1".
Theorem C50_unindexed_refuted : exists d, device_in Debug d /\ usual_header d /\
  forall m m' v, device_put m d = Ok v -> exists d', device_get m' v = Ok d' /\ d' <> d.
Proof.
  exists unlisted. split; [unfold unlisted; in_range|]. split; [repeat split|].
  intros m m' v E. assert (X : Ok v = device_put Debug unlisted) by (rewrite <- E; destruct m; reflexivity). vm_compute in X. injection X as ->.
  eexists. split; [destruct m'; vm_compute; reflexivity|discriminate].
Qed.
Print Assumptions C50_unindexed_refuted.
(** The attributes of the XML root are lost. *)
Theorem C50_header_refuted : exists d, device_in Debug d /\ device_listed d /\
  forall m m' v, device_put m d = Ok v -> exists d', device_get m' v = Ok d' /\ d' <> d.
Proof.
  exists (a_device []). split; [unfold a_device; in_range|]. split; [intros n a H; inversion H; subst; contradiction|].
  intros m m' v E. assert (X : Ok v = device_put Debug (a_device [])) by (rewrite <- E; destruct m; reflexivity). vm_compute in X. injection X as ->.
  eexists. split; [destruct m'; vm_compute; reflexivity|discriminate].
Qed.
Print Assumptions C50_header_refuted.
(** An index with a dash in it comes back as other indexes, or the array as a single element. *)
Definition dashed (i : string) : device := Device None None "dev" None "1.0" "" None None None None 8 32 rp_default
  [Array (a_peripheral "T%s" 0 None None) (DimElement 1 4096 (Some [i]) None None)]
  "http://www.w3.org/2001/XMLSchema-instance" "CMSIS-SVD_Schema_1_1.xsd" "1.1".
Theorem C50_dash_refuted : exists d d' v v' e e', device_listed d /\ device_listed d' /\ usual_header d /\ usual_header d' /\
  device_put Debug d = Ok v /\ device_get Debug v = Ok e /\ device_put Debug d' = Ok v' /\ device_get Debug v' = Ok e' /\
  (exists p a, In (Array p a) (d_peripherals e) /\ de_index a = Some ["a"; "b"; "c"]%string) /\
  (exists p, d_peripherals e' = [Single p]).
Proof.
  exists (dashed "a-c"), (dashed "a-").
  assert (L : forall i, device_listed (dashed i)).
  { intros i n a H. inversion H as [p d I|p n' d I X]; subst; destruct I as [I|[]]; [injection I as <- <-; discriminate|subst].
    inversion X as [rcs rc n'' d E]; subst. discriminate. }
  eexists _, _, _, _. split; [apply L|]. split; [apply L|]. split; [repeat split|]. split; [repeat split|].
  split; [reflexivity|]. split; [vm_compute; reflexivity|]. split; [reflexivity|]. split; [vm_compute; reflexivity|].
  split; [eexists _, _; split; [left; reflexivity|reflexivity]|eexists; reflexivity].
Qed.
Print Assumptions C50_dash_refuted.

(** ** C62: the order of the entries of maps does not matter *)
Theorem C62_order : forall m v v', same_data v v' -> device_get m v = device_get m v'.
Proof. intros m v v'. exact (device_same m v v'). Qed.
Print Assumptions C62_order.
Definition entries_of (v : data) : list (string * data) := match v with DMap es => es | _ => [] end.
Example C62_example : exists v v', same_data v v' /\ v <> v' /\ device_get Debug v = Ok (b_device (a_device [])).
Proof.
  exists (match device_put Debug (a_device []) with Ok v => v | _ => DNull end),
         (match device_put Debug (a_device []) with Ok (DMap es) => DMap (rev es) | _ => DNull end). vm_compute device_put.
  split; [|split; [discriminate|reflexivity]]. eapply sd_map with (mid := rev _); [|apply Permutation_rev|].
  - repeat constructor; cbn; intuition discriminate.
  - cbn [rev app]. repeat (constructor; [split; [reflexivity|]; repeat constructor|]). constructor.
Qed.

(** ** C63: panics *)
Theorem C63_write : forall m d, (forall e, device_put m d <> Err e) /\
  forall p, device_put m d = Panic p <->
    p = Overflow /\ m = Debug /\ exists f, in_device d (EField f) /\ no_msb (f_bit_range f).
Proof.
  intros m d. destruct (device_put_outcome m d) as [[(v & E) N]|[E (f & I & D & B)]]; rewrite E; split; try discriminate.
  - intros p. split; [discriminate|]. intros (_ & D & f & I & B). exfalso. apply N. now exists f.
  - intros p. split; [intros X; injection X as <-; eauto|]. now intros (-> & _).
Qed.
Print Assumptions C63_write.
Theorem C63_read : forall m v p, device_get m v = Panic p ->
  m = Debug /\ p = Overflow /\ exists es, inside es v /\ bad_entries es.
Proof. intros m v p. exact (device_noise m v p). Qed.
Print Assumptions C63_read.
Definition one_field (b : bit_range) : device := a_device [Single (a_peripheral "P" 0 (Some [RCRegister (Single (a_register "R" 0 (Some
  [Single (FieldInfo "F" None b None None None None [] None)]) None))]) None)].
Definition field_form (bits : list (string * data)) : data := DMap [("name", DStr "dev"); ("version", DStr ""); ("description", DStr "");
  ("addressUnitBits", DNum 8); ("width", DNum 32); ("peripherals", DSeq [DMap [("name", DStr "P"); ("baseAddress", DNum 0);
    ("registers", DSeq [DMap [("register", DMap [("name", DStr "R"); ("addressOffset", DNum 0);
       ("fields", DSeq [DMap (("name", DStr "F") :: bits)])])]])]])]%string.
Example C63_example :
  device_put Debug (one_field (BitRange 31 4294967265 BRT_MsbLsb)) = Panic Overflow /\
  (exists v, device_put Release (one_field (BitRange 31 4294967265 BRT_MsbLsb)) = Ok v) /\
  (exists v, device_put Debug (one_field (BitRange 31 4294967265 BRT_OffsetWidth)) = Ok v) /\
  device_get Debug (field_form [("bitRange", DStr "[3:4]")]%string) = Panic Overflow /\
  device_get Debug (field_form [("lsb", DNum 0); ("msb", DNum 4294967295)]%string) = Panic Overflow.
Proof. conjs; try (eexists); vm_compute; reflexivity. Qed.

(** ** C64: what reading guarantees, and what it does not *)
Theorem C64_ranges : forall m v d, device_get m v = Ok d ->
  device_holds (fun _ => True) bits_ranged d /\ usual_header d.
Proof.
  intros m v d. apply (device_yield m bits_ranged). intros es b H. exact (proj1 (br_cases m es b H)).
Qed.
Print Assumptions C64_ranges.
Theorem C64_checked : forall v d, device_get Debug v = Ok d -> device_holds (fun _ => True) bits_read d.
Proof. intros v d H. exact (proj1 (device_yield Debug bits_read br_checked v d H)). Qed.
Print Assumptions C64_checked.
(** What was read once is read again. *)
Theorem C64_stable : forall m v d, device_get Debug v = Ok d ->
  (forall n a, array_in_device d n a -> exists is, de_index a = Some is /\ indexes_in is) ->
  exists v', device_put Release d = Ok v' /\ device_get m v' = Ok d.
Proof. exact device_stable. Qed.
Print Assumptions C64_stable.
Example C64_example : device_get Debug described_form = Ok headed /\
  forall n a, array_in_device headed n a -> exists is, de_index a = Some is /\ indexes_in is.
Proof.
  split; [vm_compute; reflexivity|]. intros n a H. apply device_dim_in in H. cbn in H.
  repeat (destruct H as [<-|H]; [eexists; split; [reflexivity|in_range]|]). destruct H.
Qed.
(** Reading does not validate. *)
Theorem C64_unvalidated_refuted : exists v d e, (forall m, device_get m v = Ok d) /\ device_validate_all Weak d = Err e.
Proof.
  eexists (field_form [("bitOffset", DNum 0); ("bitWidth", DNum 0)]%string), _, _.
  split; [intros []; vm_compute; reflexivity|vm_compute; reflexivity].
Qed.
Print Assumptions C64_unvalidated_refuted.

(** ** C65: the text and the ends of a bit range *)
Lemma bracketed_one t h l h' l' : bracketed t h l -> bracketed t h' l' -> h = h' /\ l = l'.
Proof. rewrite <- !brackets_bracketed. intros A B. rewrite A in B. injection B as -> ->. now split. Qed.
Lemma width_panics m h l : h < 2 ^ 32 -> l < 2 ^ 32 -> forall p, bit_width m h l = Panic p <-> p = Overflow /\ m = Debug /\ bad_span h l.
Proof.
  intros H L p. unfold bit_width, sub32, add32, sub_w, add_w, bad_span, pow32.
  destruct (N.leb_spec l h) as [C|C]; cbn [bind]; [|destruct m; cbn [bind]].
  - destruct (N.ltb_spec (h - l + 1) 4294967296) as [S|S]; [|destruct m].
    + split; [discriminate|]. lia.
    + split; [intros X; injection X as <-; conjs; try reflexivity; lia|now intros (-> & _)].
    + split; [discriminate|]. now intros (_ & ? & _).
  - split; [intros X; injection X as <-; conjs; try reflexivity; lia|now intros (-> & _)].
  - destruct (_ <? _); (split; [discriminate|]; now intros (_ & ? & _)).
Qed.
Theorem C65_text : forall m t b, br_from_bit_range m t = Ok (Some b) <->
  exists h, bracketed t h (br_offset b) /\ span h (br_offset b) (br_width b) /\ br_type b = BRT_BitRange /\
            (m = Debug -> ~ bad_span h (br_offset b)).
Proof.
  intros m t b. rewrite from_brackets. split.
  - destruct (brackets t) as [[h l]| |] eqn:E; try discriminate. intros H. apply bind_ok in H as (w & W & H). injection H as <-.
    apply brackets_bracketed in E. assert (K : h < 2 ^ 32 /\ l < 2 ^ 32) by (destruct E as (? & ? & ? & ? & _ & _ & _ & _ & X); exact X).
    apply bit_width_span in W as [S D]; try apply K. exists h. now conjs.
  - intros (h & B & S & T & D). assert (K : h < 2 ^ 32 /\ br_offset b < 2 ^ 32) by (destruct B as (? & ? & ? & ? & _ & _ & _ & _ & X); exact X).
    apply brackets_bracketed in B. rewrite B. rewrite (proj2 (bit_width_span m h (br_offset b) (br_width b) (proj1 K) (proj2 K))) by now split.
    cbn [bind]. rewrite <- T. now destruct b.
Qed.
Print Assumptions C65_text.
Theorem C65_refused : forall m t, br_from_bit_range m t = Ok None <-> forall h l, ~ bracketed t h l.
Proof.
  intros m t. rewrite from_brackets. destruct (brackets t) as [[h l]| |] eqn:E.
  - split; [|intros H; apply brackets_bracketed in E; now destruct (H h l)]. intros H. apply bind_ok in H as (w & _ & H). discriminate.
  - split; [|reflexivity]. intros _ h l B. apply brackets_bracketed in B. congruence.
  - split; [|reflexivity]. intros _ h l B. apply brackets_bracketed in B. congruence.
Qed.
Print Assumptions C65_refused.
Theorem C65_panics : forall m t, (forall e, br_from_bit_range m t <> Err e) /\
  forall p, br_from_bit_range m t = Panic p <-> p = Overflow /\ m = Debug /\ exists h l, bracketed t h l /\ bad_span h l.
Proof.
  intros m t. rewrite from_brackets. destruct (brackets t) as [[h l]| |] eqn:E.
  - apply brackets_bracketed in E. assert (K : h < 2 ^ 32 /\ l < 2 ^ 32) by (destruct E as (? & ? & ? & ? & _ & _ & _ & _ & X); exact X).
    pose proof (width_panics m h l (proj1 K) (proj2 K)) as W. split.
    + intros e. unfold bit_width, sub32, add32, sub_w, add_w. destruct (_ <=? _), m; cbn [bind]; try destruct (_ <? _); discriminate.
    + intros p. specialize (W p). split.
      * destruct (bit_width m h l) as [w|e|q]; cbn [bind]; try discriminate. intros X. injection X as ->.
        destruct (proj1 W eq_refl) as (-> & -> & B). conjs; auto. now exists h, l.
      * intros (P & M & h' & l' & B & S). destruct (bracketed_one _ _ _ _ _ E B) as [<- <-].
        rewrite (proj2 W) by now conjs. reflexivity.
  - split; [discriminate|]. intros p. split; [discriminate|]. intros (_ & _ & h & l & B & _). apply brackets_bracketed in B. congruence.
  - split; [discriminate|]. intros q. split; [discriminate|]. intros (_ & _ & h & l & B & _). apply brackets_bracketed in B. congruence.
Qed.
Print Assumptions C65_panics.
Theorem C65_ends : forall m h l, h < 2 ^ 32 -> l < 2 ^ 32 ->
  (forall b, br_from_msb_lsb m h l = Ok b <->
     br_offset b = l /\ span h l (br_width b) /\ br_type b = BRT_MsbLsb /\ (m = Debug -> ~ bad_span h l)) /\
  (forall p, br_from_msb_lsb m h l = Panic p <-> p = Overflow /\ m = Debug /\ bad_span h l).
Proof.
  intros m h l H L.
  assert (E : br_from_msb_lsb m h l = let* w := bit_width m h l in Ok {| br_offset := l; br_width := w; br_type := BRT_MsbLsb |}).
  { unfold br_from_msb_lsb, bit_width. now rewrite bind_assoc. }
  rewrite E. split; intros x.
  - split.
    + intros X. apply bind_ok in X as (w & W & X). injection X as <-. apply bit_width_span in W as [S D]; auto.
    + intros (<- & S & T & D). rewrite (proj2 (bit_width_span m h (br_offset x) (br_width x) H L)) by now split. cbn [bind]. rewrite <- T. now destruct x.
  - rewrite <- (width_panics m h l H L x). destruct (bit_width m h l); cbn [bind]; split; congruence.
Qed.
Print Assumptions C65_ends.
(** The text of a range denotes it. *)
Theorem C65_round_trip : forall m m' b, 1 <= br_width b -> br_offset b + br_width b < 2 ^ 32 ->
  exists t, br_text m b = Ok t /\
    br_from_bit_range m' t = Ok (Some {| br_offset := br_offset b; br_width := br_width b; br_type := BRT_BitRange |}).
Proof.
  intros m m' b W S. unfold br_text. rewrite br_msb_ok by (unfold pow32; lia). cbn [bind]. eexists. split; [reflexivity|].
  rewrite from_brackets. unfold br_lsb. rewrite brackets_text by (unfold pow32; lia). rewrite bit_width_ok by (unfold pow32; lia). cbn [bind].
  repeat f_equal. lia.
Qed.
Print Assumptions C65_round_trip.
Example C65_example : br_from_bit_range Debug "[7:4]" = Ok (Some {| br_offset := 4; br_width := 4; br_type := BRT_BitRange |}) /\
  br_from_bit_range Debug "[+7:4:more]" = Ok (Some {| br_offset := 4; br_width := 4; br_type := BRT_BitRange |}) /\
  br_from_bit_range Release "[4:7]" = Ok (Some {| br_offset := 7; br_width := 4294967294; br_type := BRT_BitRange |}) /\
  br_from_bit_range Debug "[4:7]" = Panic Overflow /\ br_from_bit_range Debug "[7]" = Ok None /\ br_from_bit_range Debug "[" = Ok None.
Proof. conjs; vm_compute; reflexivity. Qed.

(** ** C66: entries with foreign keys are ignored, wherever they are *)
Theorem C66_foreign_keys : forall m v v', padded v v' -> device_get m v = device_get m v'.
Proof. intros m v v'. exact (device_pad m v v'). Qed.
Print Assumptions C66_foreign_keys.
Example C66_example : exists v v', padded v v' /\ v <> v' /\ exists d, device_get Debug v = Ok d.
Proof.
  exists (field_form [("lsb", DNum 3); ("msb", DNum 4)]%string), (DMap (("comment", DStr "x") :: ("comment", DNull) ::
    entries_of (field_form [("lsb", DNum 3); ("x-note", DSeq []); ("msb", DNum 4)]))%string).
  split; [|split; [discriminate|eexists; vm_compute; reflexivity]]. unfold field_form. cbn [entries_of].
  assert (F : forall k, existsb (seqb k) format_keys = false -> ~ In k format_keys).
  { intros k E I. assert (existsb (seqb k) format_keys = true); [|congruence]. apply existsb_exists. exists k. split; [exact I|apply seqb_refl]. }
  assert (T : forall es, forallb (fun k => negb (existsb (seqb k) (map fst es))) tag_keys = true -> forall k, In k tag_keys -> ~ In k (map (@fst string data) es)).
  { intros es E k I J. rewrite forallb_forall in E. specialize (E k I). apply negb_true_iff in E.
    assert (existsb (seqb k) (map fst es) = true); [|congruence]. apply existsb_exists. exists k. split; [exact J|apply seqb_refl]. }
  repeat match goal with
  | |- padded_entries ?es ?es => apply padded_entries_refl
  | |- padded_entries ((?k, _) :: _) ((?k, _) :: _) => apply pe_keep
  | |- padded_entries _ ((_, _) :: _) => apply pe_add; [apply F; vm_compute; reflexivity|]
  | |- padded ?v ?v => apply pd_same
  | |- padded (DMap [(_, _)]) _ => apply pd_variant
  | |- padded (DMap _) _ => apply pd_map; [apply T; vm_compute; reflexivity|]
  | |- padded (DSeq _) _ => apply pd_seq; constructor; [|constructor]
  end.
Qed.
