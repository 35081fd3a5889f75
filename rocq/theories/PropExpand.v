(** C30-C40: paths, the derivation index, expansion and property defaults. *)
From Verif Require Import Base BaseFacts Types Arrays Expand TreeFacts SpecNum SpecArray SpecDerive SpecPath PathProofs
  SpecExpand ExpandProofs PlaceProofs ChainProofs MeaningProofs SpecFlat FlatProofs SpecFail FailProofs SpecProps PropertyProofs.

(** ** C30: paths *)
Theorem C30_print :
  (forall b, bp_show b = glue "." (block_parts b)) /\ (forall r, rg_show r = glue "." (register_parts r)) /\
  (forall f, fp_show f = glue "." (field_parts f)) /\ (forall e, ep_show e = glue "." (enum_parts e)).
Proof. repeat split; [apply show_block|apply show_register|apply show_field|apply show_enum]. Qed.
Print Assumptions C30_print.
(** Comparing with a text: the text is the path, and the parts have no dots. *)
Theorem C30_compare :
  (forall b s, bp_eq_str b s = true <-> cut "." s (block_parts b)) /\
  (forall r s, rg_eq_str r s = true <-> cut "." s (register_parts r)) /\
  (forall f s, fp_eq_str f s = true <-> cut "." s (field_parts f)) /\
  (forall e s, ep_eq_str e s = true <-> cut "." s (enum_parts e)).
Proof. split; [|split; [|split]]; [apply bp_eq_str_cut|apply rg_eq_str_cut|apply fp_eq_str_cut|apply ep_eq_str_cut]. Qed.
Print Assumptions C30_compare.
(** Parsing a text: every text is a block or register path; a field path cannot have
    exactly two parts. *)
Theorem C30_parse :
  (forall s, exists o n, bp_parse_str s = Ok (o, n)) /\
  (forall s o n, bp_parse_str s = Ok (o, n) <-> cut "." s (optional_parts block_parts o ++ [n])) /\
  (forall s o n, fp_parse_str s = Ok (o, n) <-> cut "." s (optional_parts register_parts o ++ [n])) /\
  (forall s, (exists o n, fp_parse_str s = Ok (o, n)) \/ fp_parse_str s = Panic Unwrap).
Proof. split; [|split; [|split]]; [apply bp_parse_str_total|apply bp_parse_str_spec|apply fp_parse_str_spec|apply fp_parse_str_cases]. Qed.
Print Assumptions C30_parse.
Theorem C30_round_trip :
  (forall b n, dotless (block_parts b ++ [n]) -> bp_parse_str (bp_show (new_cluster b n)) = Ok (Some b, n)) /\
  (forall r, dotless (register_parts r) -> bp_parse_str (rg_show r) = Ok (Some (rg_block r), rg_name r)) /\
  (forall f, dotless (field_parts f) -> fp_parse_str (fp_show f) = Ok (Some (fp_register f), fp_name f)).
Proof. split; [|split]; [apply bp_show_parse|apply rg_show_parse|apply fp_show_parse]. Qed.
Print Assumptions C30_round_trip.
(** A register.field reference panics. *)
Theorem C30_two_parts_refuted : forall s, (exists a b, cut "." s [a; b]) <-> fp_parse_str s = Panic Unwrap.
Proof. exact fp_parse_str_bad. Qed.
Print Assumptions C30_two_parts_refuted.
Lemma no_dot s : existsb (Ascii.eqb ".") (list_ascii_of_string s) = false -> free_of "." s.
Proof.
  intros E I. assert (existsb (Ascii.eqb ".") (list_ascii_of_string s) = true); [|congruence].
  apply existsb_exists. exists "."%char. split; auto.
Qed.
Example C30_example : dotless (field_parts (FieldPath (RegisterPath (BlockPath "P" ["C"; "D"]) "R") "F")) /\
  fp_show (FieldPath (RegisterPath (BlockPath "P" ["C"; "D"]) "R") "F") = "P.C.D.R.F"%string /\
  fp_parse_str "P.R.F" = Ok (Some (RegisterPath (BlockPath "P" []) "R"), "F"%string) /\
  fp_parse_str "R.F" = Panic Unwrap.
Proof. split; [repeat constructor; apply no_dot; reflexivity|repeat split]. Qed.

(** ** Devices for the examples *)
Definition a_field (n : string) (o w : N) (evs : list enumerated_values) (s : option string) : field_info :=
  FieldInfo n None (BitRange o w BRT_OffsetWidth) None None None None evs s.
Definition a_register (n : string) (o : N) (fs : option (list field)) (s : option string) : register_info :=
  RegisterInfo n None None None None o rp_default None None None None fs s.
Definition a_cluster (n : string) (o : N) (kids : list register_cluster) (s : option string) : cluster_info :=
  ClusterInfo n None None None o rp_default kids s.
Definition a_peripheral (n : string) (o : N) (rs : option (list register_cluster)) (s : option string) : peripheral_info :=
  PeripheralInfo n None None None None None None None None o rp_default None [] rs s.
Definition a_device (ps : list peripheral) : device :=
  Device None None "dev" None "1.0" "" None None None None 8 32 (RegProps (Some 32) None None (Some 0) None) ps "" "" "".
Definition times (n inc : N) : dim_element := DimElement n inc None None None.
Definition on : enumerated_value := EnumeratedValue "ON" None (Some 1) None.
(** Timers T0 (with a derived field, derived values and a derived register) and T1. *)
Definition timers : device := a_device
  [Single (a_peripheral "T0" 16384 (Some
     [RCRegister (Single (a_register "CR" 0 (Some
        [Single (a_field "EN" 0 1 [EnumeratedValues (Some "ev") None None [on]] None);
         Array (a_field "IE%s" 4 1 [] (Some "EN")) (times 2 1);
         Single (a_field "X" 8 1 [EnumeratedValues None None (Some "ev") []] None)]) None));
      RCCluster (Array (a_cluster "CH%s" 256
        [RCRegister (Array (a_register "D%s" 4 None None) (times 2 4));
         RCCluster (Single (a_cluster "IN" 32 [RCRegister (Single (a_register "Q" 0 None (Some "T0.CR")))] None))] None)
        (times 2 64))]) None);
   Single (a_peripheral "T1" 20480 None (Some "T0"))].
Definition register_names (d : device) : list (string * list (string * N)) :=
  map (fun p => (p_name (info p),
    map (fun rc => (rc_name rc, rc_address_offset rc)) (or_empty (p_registers (info p))))) (d_peripherals d).
Definition ok_or_self (r : res device) (d : device) : device := match r with Ok d' => d' | _ => d end.
Definition timers_expanded : device := Eval vm_compute in ok_or_self (expand Debug 6 timers) timers.
Example timers_ok : expand Debug 6 timers = Ok timers_expanded /\ register_names timers_expanded =
  [("T0", [("CR", 0); ("CH0_D0", 260); ("CH0_D1", 264); ("CH0_IN_Q", 288);
           ("CH1_D0", 324); ("CH1_D1", 328); ("CH1_IN_Q", 352)]);
   ("T1", [("CR", 0); ("CH0_D0", 260); ("CH0_D1", 264); ("CH0_IN_Q", 288);
           ("CH1_D0", 324); ("CH1_D1", 328); ("CH1_IN_Q", 352)])]%string.
Proof. split; vm_compute; reflexivity. Qed.

(** ** C31: the index *)
Theorem C31_sound : forall d ix, index_create d = Ok ix ->
  (forall q x, ix_peripheral ix q = Some x -> peripheral_placed d (block_parts q) x) /\
  (forall q x, ix_cluster ix q = Some x -> cluster_placed d (block_parts q) x) /\
  (forall q x, ix_register ix q = Some x -> register_placed d (register_parts q) x) /\
  (forall q x, ix_field ix q = Some x -> field_placed d (field_parts q) x) /\
  (forall q x, ix_enum ix q = Some x -> values_placed d (enum_parts q) x).
Proof.
  intros d ix H. split; [|split; [|split; [|split]]];
    [apply ix_peripheral_sound|apply ix_cluster_sound|apply ix_register_sound|apply ix_field_sound|apply ix_enum_sound]; exact H.
Qed.
Print Assumptions C31_sound.
Theorem C31_complete : forall d ix, index_create d = Ok ix ->
  (forall q x, peripheral_placed d (block_parts q) x -> exists y, ix_peripheral ix q = Some y) /\
  (forall q x, cluster_placed d (block_parts q) x -> exists y, ix_cluster ix q = Some y) /\
  (forall q x, register_placed d (register_parts q) x -> exists y, ix_register ix q = Some y) /\
  (forall q x, field_placed d (field_parts q) x -> exists y, ix_field ix q = Some y) /\
  (forall q x, values_placed d (enum_parts q) x -> exists y, ix_enum ix q = Some y).
Proof.
  intros d ix H. split; [|split; [|split; [|split]]];
    [apply ix_peripheral_complete|apply ix_cluster_complete|apply ix_register_complete|apply ix_field_complete|apply ix_enum_complete]; exact H.
Qed.
Print Assumptions C31_complete.
(** A path that only one element has leads to it. *)
Theorem C31_unique : forall d ix, index_create d = Ok ix ->
  (forall q x, peripheral_placed d (block_parts q) x ->
     (forall y, peripheral_placed d (block_parts q) y -> y = x) -> ix_peripheral ix q = Some x) /\
  (forall q x, cluster_placed d (block_parts q) x ->
     (forall y, cluster_placed d (block_parts q) y -> y = x) -> ix_cluster ix q = Some x) /\
  (forall q x, register_placed d (register_parts q) x ->
     (forall y, register_placed d (register_parts q) y -> y = x) -> ix_register ix q = Some x) /\
  (forall q x, field_placed d (field_parts q) x ->
     (forall y, field_placed d (field_parts q) y -> y = x) -> ix_field ix q = Some x) /\
  (forall q x, values_placed d (enum_parts q) x ->
     (forall y, values_placed d (enum_parts q) y -> y = x) -> ix_enum ix q = Some x).
Proof.
  intros d ix H. destruct (C31_sound d ix H) as (S1 & S2 & S3 & S4 & S5), (C31_complete d ix H) as (K1 & K2 & K3 & K4 & K5).
  split; [|split; [|split; [|split]]]; intros q x P U.
  - destruct (K1 _ _ P) as [y E]. now rewrite (U _ (S1 _ _ E)) in E.
  - destruct (K2 _ _ P) as [y E]. now rewrite (U _ (S2 _ _ E)) in E.
  - destruct (K3 _ _ P) as [y E]. now rewrite (U _ (S3 _ _ E)) in E.
  - destruct (K4 _ _ P) as [y E]. now rewrite (U _ (S4 _ _ E)) in E.
  - destruct (K5 _ _ P) as [y E]. now rewrite (U _ (S5 _ _ E)) in E.
Qed.
Print Assumptions C31_unique.
(** Of several peripherals with one name the last is found. *)
Theorem C31_last : forall d ix n before p after, index_create d = Ok ix ->
  d_peripherals d = before ++ p :: after -> is_called p_name p n ->
  (forall x, In x after -> ~ is_called p_name x n) -> ix_peripheral ix (bp_new n) = Some p.
Proof. exact ix_peripheral_last. Qed.
Print Assumptions C31_last.
Example C31_example : exists ix, index_create timers = Ok ix /\
  option_map (fun r => r_name (info r)) (ix_register ix (RegisterPath (BlockPath "T0" ["CH1"]) "D0")) = Some "D%s"%string /\
  ix_register ix (RegisterPath (BlockPath "T1" []) "CR") = None /\
  register_placed timers ["T0"; "CR"]%string
    (Single (a_register "CR" 0 (Some
        [Single (a_field "EN" 0 1 [EnumeratedValues (Some "ev"%string) None None [on]] None);
         Array (a_field "IE%s" 4 1 [] (Some "EN"%string)) (times 2 1);
         Single (a_field "X" 8 1 [EnumeratedValues None None (Some "ev"%string) []] None)]) None)).
Proof.
  eexists. split; [vm_compute; reflexivity|]. split; [vm_compute; reflexivity|]. split; [vm_compute; reflexivity|].
  exists ["T0"%string], "CR"%string. eexists. split; [reflexivity|]. split.
  - apply cp_peripheral with (p := List.hd (Single (a_peripheral "" 0 None None)) (d_peripherals timers)).
    exists "T0"%string. split; [reflexivity|]. split; [left; reflexivity|left; reflexivity].
  - split; [left; reflexivity|left; reflexivity].
Qed.

(** ** C32, C33, C35 *)
Theorem C32_flat : forall m fuel d d', expand m fuel d = Ok d' -> flat_device d'.
Proof. exact expand_flat. Qed.
Print Assumptions C32_flat.
Theorem C33_reachable : forall m fuel d, expand m fuel d <> Panic Unreachable.
Proof. exact expand_reachable. Qed.
Print Assumptions C33_reachable.
(** What else can happen: an index out of bounds, a two part field reference, endless
    recursion, and in debug builds an overflow. *)
Theorem C33_panics : forall m fuel d p, expand m fuel d = Panic p ->
  p = OutOfBounds \/ p = Unwrap \/ p = OutOfFuel \/ (p = Overflow /\ m = Debug).
Proof. exact expand_panics. Qed.
Print Assumptions C33_panics.
Theorem C35_idempotent : forall m m' fuel fuel' d d', expand m fuel d = Ok d' -> expand m' (S fuel') d' = Ok d'.
Proof. exact expand_idempotent. Qed.
Print Assumptions C35_idempotent.
(** More generally, a device with nothing to expand is returned as it is. *)
Theorem C35_identity : forall m fuel d, flat_device d -> expand m (S fuel) d = Ok d.
Proof. exact expand_id. Qed.
Print Assumptions C35_identity.
Example C35_example : flat_device timers_expanded /\ expand Release 1 timers_expanded = Ok timers_expanded /\
  ~ flat_device timers.
Proof.
  split; [eapply C32_flat; apply timers_ok|]. split; [eapply C35_idempotent; apply timers_ok|].
  intros F. pose proof (C35_identity Debug 5 _ F) as E. rewrite (proj1 timers_ok) in E. discriminate.
Qed.

(** ** C34: layout without derivation *)
Theorem C34_layout : forall m fuel d d', underived d -> expand m fuel d = Ok d' ->
  exists groups, d_peripherals d' = map Single (List.concat groups) /\ Forall2 (flattened m) (d_peripherals d) groups.
Proof. intros m fuel d d' U E. exact (device_layout m d d' U (expand_meaning m fuel d d' E)). Qed.
Print Assumptions C34_layout.
Definition nested : device := a_device
  [Array (a_peripheral "T%s" 16384 (Some
     [RCCluster (Array (a_cluster "CH%s" 256
        [RCRegister (Array (a_register "D%s" 4 (Some [Array (a_field "F%s" 0 2 [] None) (times 3 2)]) None) (times 2 4));
         RCCluster (Single (a_cluster "IN" 32 [RCRegister (Single (a_register "Q" 0 None None))] None))] None)
        (times 2 64))]) None) (times 2 4096)].
Example C34_example : underived nested /\ exists d', expand Debug 4 nested = Ok d' /\
  map (fun p => p_base_address (info p)) (d_peripherals d') = [16384; 20480] /\
  register_names d' =
  [("T0", [("CH0_D0", 260); ("CH0_D1", 264); ("CH0_IN_Q", 288); ("CH1_D0", 324); ("CH1_D1", 328); ("CH1_IN_Q", 352)]);
   ("T1", [("CH0_D0", 260); ("CH0_D1", 264); ("CH0_IN_Q", 288); ("CH1_D0", 324); ("CH1_D1", 328); ("CH1_IN_Q", 352)])]%string.
Proof.
  split; [repeat (constructor; cbn)|]. eexists. split; [vm_compute; reflexivity|]. split; vm_compute; reflexivity.
Qed.

(** ** C36: the rest of the device, the order of peripherals and their identity *)
Theorem C36_frame : forall m fuel d d', expand m fuel d = Ok d' -> same_but_peripherals d d' /\
  exists groups, d_peripherals d' = map Single (List.concat groups) /\ Forall2 (identity_kept m) (d_peripherals d) groups.
Proof.
  intros m fuel d d' E. destruct (expand_meaning m fuel d d' E) as (S & groups & F & Ep). split; [exact S|].
  exists groups. split; [exact Ep|]. clear -F. induction F as [|p o ps os P F IH]; constructor; [eapply kept_identity; exact P|exact IH].
Qed.
Print Assumptions C36_frame.
Example C36_example : expand Debug 6 timers = Ok timers_expanded /\
  map (fun p => (p_name (info p), p_base_address (info p))) (d_peripherals timers_expanded) =
  [("T0", 16384); ("T1", 20480)]%string.
Proof. split; [apply timers_ok|reflexivity]. Qed.

(** ** C37: derivation *)
Theorem C37_meaning : forall m fuel d d', expand m fuel d = Ok d' -> device_expanded m d d'.
Proof. exact expand_meaning. Qed.
Print Assumptions C37_meaning.
(** One element at a time. *)
Theorem C37_peripheral : forall d ix, index_create d = Ok ix -> forall fuel p s p' o, p_derived_from (info p) = None ->
  derive_peripheral ix fuel p s = Ok (p', o) -> exists chain,
    follows_peripherals d (p_name (info p)) [] (Some s) chain /\ peripheral_from p (paths chain) p' /\
    origin (fun x => p_registers (info x) = None) p chain [p_name (info p)]
           (block_parts (opt_default (bp_new (p_name (info p))) o)).
Proof.
  intros d ix H fuel p s p' o N E. destruct (derive_peripheral_chain d ix H _ _ _ _ _ N E) as (chain & C).
  exists chain. destruct (C []) as (C1 & C2 & C3). conjs; auto.
  exact (returned_origin _ block_parts _ _ _ (bp_new (p_name (info p))) C3).
Qed.
Print Assumptions C37_peripheral.
Theorem C37_cluster : forall d ix, index_create d = Ok ix -> forall fuel (c : cluster) s b c' o, c_derived_from (info c) = None ->
  derive_cluster ix fuel c s b = Ok (c', o) -> exists chain,
    follows_clusters d (c_name (info c)) (block_parts b) (Some s) chain /\ cluster_from c (paths chain) c' /\
    origin (fun x : cluster => c_children (info x) = []) c chain (block_parts (new_cluster b (c_name (info c))))
           (block_parts (opt_default (new_cluster b (c_name (info c))) o)).
Proof.
  intros d ix H fuel c s b c' o N E. destruct (derive_cluster_chain d ix H _ _ _ _ _ _ N E) as (chain & C1 & C2 & C3).
  exists chain. conjs; auto. exact (returned_origin _ block_parts _ _ _ (new_cluster b (c_name (info c))) C3).
Qed.
Print Assumptions C37_cluster.
Theorem C37_register : forall d ix, index_create d = Ok ix -> forall fuel r s b r' o, r_derived_from (info r) = None ->
  derive_register ix fuel r s b = Ok (r', o) -> exists chain,
    follows_registers d (r_name (info r)) (block_parts b) (Some s) chain /\ register_from r (paths chain) r' /\
    origin (fun x => r_fields (info x) = None) r chain (register_parts (new_register b (r_name (info r))))
           (register_parts (opt_default (new_register b (r_name (info r))) o)).
Proof.
  intros d ix H fuel r s b r' o N E. destruct (derive_register_chain d ix H _ _ _ _ _ _ N E) as (chain & C1 & C2 & C3).
  exists chain. conjs; auto. exact (returned_origin _ register_parts _ _ _ (new_register b (r_name (info r))) C3).
Qed.
Print Assumptions C37_register.
Theorem C37_field : forall d ix, index_create d = Ok ix -> forall fuel f s b f' o, f_derived_from (info f) = None ->
  derive_field ix fuel f s b = Ok (f', o) -> exists chain,
    follows_fields d (f_name (info f)) (register_parts b) (Some s) chain /\ field_from f (paths chain) f' /\
    origin (fun x => f_enumerated_values (info x) = []) f chain (field_parts (new_field b (f_name (info f))))
           (field_parts (opt_default (new_field b (f_name (info f))) o)).
Proof.
  intros d ix H fuel f s b f' o N E. destruct (derive_field_chain d ix H _ _ _ _ _ _ N E) as (chain & C1 & C2 & C3).
  exists chain. conjs; auto. exact (returned_origin _ field_parts _ _ _ (new_field b (f_name (info f))) C3).
Qed.
Print Assumptions C37_field.
Theorem C37_values : forall d ix, index_create d = Ok ix -> forall fuel e s f e' o, evs_derived_from e = None ->
  derive_enum ix fuel e s f = Ok (e', o) -> exists chain,
    follows_values d (evs_name e) (field_parts f) (Some s) chain /\ values_from e (paths chain) e'.
Proof. intros d ix H fuel e s f e' o N E. exact (derive_enum_chain d ix H _ _ _ _ _ _ N E). Qed.
Print Assumptions C37_values.
(** A reference to itself or to nothing is not ignored. *)
Theorem C37_missing :
  (forall m fuel d p s, In p (d_peripherals d) -> p_derived_from (info p) = Some s ->
     (forall q, peripheral_placed d [s] q -> s = p_name (info p)) -> forall d', expand m fuel d <> Ok d') /\
  (forall m fuel d ctx (c : cluster) s, stands d ctx (RCCluster c) -> c_derived_from (info c) = Some s ->
     (forall path q, resolves ctx s path -> cluster_placed d path q -> path = ctx ++ [c_name (info c)]) ->
     forall d', expand m fuel d <> Ok d') /\
  (forall m fuel d ctx r s, stands d ctx (RCRegister r) -> r_derived_from (info r) = Some s ->
     (forall path q, resolves ctx s path -> register_placed d path q -> path = ctx ++ [r_name (info r)]) ->
     forall d', expand m fuel d <> Ok d') /\
  (forall m fuel d ctx f s, field_stands d ctx f -> f_derived_from (info f) = Some s ->
     (forall path q, resolves ctx s path -> field_placed d path q -> path = ctx ++ [f_name (info f)]) ->
     forall d', expand m fuel d <> Ok d') /\
  (forall m fuel d ctx e s, values_stand d ctx e -> evs_derived_from e = Some s ->
     (evs_name e = Some s \/
      forall path q, resolves_values d ctx s path -> values_placed d path q ->
        exists n, evs_name e = Some n /\ path = ctx ++ [n]) ->
     forall d', expand m fuel d <> Ok d').
Proof.
  split; [|split; [|split; [|split]]];
    [exact missing_peripheral|exact missing_cluster|exact missing_register|exact missing_field|exact missing_values].
Qed.
Print Assumptions C37_missing.
Definition own_reference : device := a_device [Single (a_peripheral "T" 0 (Some
  [RCRegister (Single (a_register "R" 0 None (Some "R"%string)))]) None)].
Example C37_example : expand Debug 6 timers = Ok timers_expanded /\
  (exists r, stands own_reference ["T"%string] (RCRegister r) /\ r_derived_from (info r) = Some "R"%string /\
     (forall path q, resolves ["T"%string] "R" path -> register_placed own_reference path q ->
        path = ["T"%string] ++ [r_name (info r)])) /\
  expand Debug 6 own_reference = Err (ESelfDerived KRegister "T.R").
Proof.
  split; [apply timers_ok|]. split; [|reflexivity]. eexists. split.
  - apply st_top with (p := Single (a_peripheral "T" 0 (Some [RCRegister (Single (a_register "R" 0 None (Some "R"%string)))]) None));
      [left; reflexivity|reflexivity|left; reflexivity].
  - split; [reflexivity|]. intros path q (parts & C & H) _. apply ArrayProofs.cut_split in C. cbn in C. subst parts.
    destruct H as [(n & [= <-] & ->)|[L _]]; [reflexivity|cbn in L; lia].
Qed.
(** The content of a derived peripheral is not always read where it was written: here A
    takes the registers of B, whose reference to a sibling is then looked up in A. *)
Definition sibling : list register_cluster :=
  [RCRegister (Single (a_register "R" 0 None None)); RCRegister (Single (a_register "S" 4 None (Some "R"%string)))].
Definition base_c : peripheral := Single (a_peripheral "C" 0 None None).
Definition base_b : peripheral := Single (a_peripheral "B" 0 (Some sibling) (Some "C"%string)).
Definition derived_a : peripheral := Single (a_peripheral "A" 0 None (Some "B"%string)).
Theorem C37_origin_refuted : exists p q r, p_derived_from (info r) = Some (p_name (info q)) /\
  p_derived_from (info q) = Some (p_name (info p)) /\
  forall m fuel, (exists d', expand m (6 + fuel) (a_device [p; q]) = Ok d') /\
    expand m (6 + fuel) (a_device [p; q; r]) = Err (ENotFound KRegister "R").
Proof.
  exists base_c, base_b, derived_a. split; [reflexivity|]. split; [reflexivity|]. intros m fuel.
  split; [eexists; cbn; reflexivity|]. cbn. reflexivity.
Qed.
Print Assumptions C37_origin_refuted.

(** ** C38: endless recursion *)
Definition loop : device := a_device
  [Single (a_peripheral "C" 0 None (Some "A"%string)); Single (a_peripheral "A" 0 None (Some "B"%string));
   Single (a_peripheral "B" 0 None (Some "A"%string))].
Definition ix_of (r : res index) : index := match r with Ok ix => ix | _ => [] end.
Definition loop_index : index := Eval vm_compute in ix_of (index_create loop).
Lemma loop_forever k : forall p : peripheral, p_name (info p) = "C"%string ->
  derive_peripheral loop_index k p "A" = Panic OutOfFuel /\ derive_peripheral loop_index k p "B" = Panic OutOfFuel.
Proof.
  induction k as [|k IH]; intros p N; [split; reflexivity|]. cbn [derive_peripheral]. rewrite N.
  change (seqb "A" "C") with false. change (seqb "B" "C") with false. cbv iota.
  change (ix_peripheral loop_index (bp_new "A")) with (Some (Single (a_peripheral "A" 0 None (Some "B"%string)))).
  change (ix_peripheral loop_index (bp_new "B")) with (Some (Single (a_peripheral "B" 0 None (Some "A"%string)))).
  cbn [ok_or bind info p_derived_from a_peripheral].
  split; [apply (IH _)|apply (IH _)]; destruct p; exact N.
Qed.
(** A cycle of derivations that does not come back to its start. *)
Theorem C38_cycle_refuted : exists d, forall m fuel, expand m fuel d = Panic OutOfFuel.
Proof.
  exists loop. intros m fuel. unfold expand. change (index_create loop) with (Ok loop_index). cbn [bind].
  change (d_peripherals loop) with (Single (a_peripheral "C" 0 None (Some "A"%string)) :: List.tl (d_peripherals loop)).
  cbn [concatM]. unfold expand_peripheral at 1. cbn [info p_derived_from a_peripheral].
  match goal with |- context [derive_peripheral _ _ ?p _] => rewrite (proj1 (loop_forever fuel p eq_refl)) end. reflexivity.
Qed.
Print Assumptions C38_cycle_refuted.
(** A cluster derived from the cluster it is in. *)
Definition inner : cluster := Single (a_cluster "L" 0 [] (Some "P.K"%string)).
Definition within : device := a_device [Single (a_peripheral "P" 0 (Some
  [RCCluster (Single (a_cluster "K" 0 [RCCluster inner] None))]) None)].
Definition within_index : index := Eval vm_compute in ix_of (index_create within).
Lemma within_forever m k : expand_rc m within_index k (BlockPath "P" ["K"%string]) (RCCluster inner) = Panic OutOfFuel.
Proof.
  induction k as [|k IH]; [reflexivity|]. cbn [expand_rc inner info c_derived_from a_cluster].
  destruct k as [|k]; [reflexivity|]. cbn [derive_cluster].
  change (bp_parse_str "P.K") with (Ok (Some (bp_new "P"), "K"%string)). cbn [bind fst snd opt_default].
  change (bp_eqb (bp_new "P") (BlockPath "P" ["K"%string])) with false. cbn [andb].
  change (ix_cluster within_index (new_cluster (bp_new "P") "K")) with (Some (Single (a_cluster "K" 0 [RCCluster inner] None))).
  cbn [ok_or bind info c_derived_from a_cluster ma_map c_with c_children is_nil fst snd opt_default].
  match goal with |- context [concatM ?f ?l] => change l with [RCCluster inner] end.
  change (new_cluster (bp_new "P") "K") with (BlockPath "P" ["K"%string]).
  change (concatM ?f [?x]) with (let* y := f x in let* l := concatM f [] in Ok (y ++ l)).
  cbn [concatM].
  match goal with |- context [expand_rc _ _ _ ?b _] => change b with (BlockPath "P" ["K"%string]) end. rewrite IH. reflexivity.
Qed.
Theorem C38_nested_refuted : exists d, (forall p, In p (d_peripherals d) -> p_derived_from (info p) = None) /\
  forall m fuel, expand m fuel d = Panic OutOfFuel.
Proof.
  exists within. split; [intros p [<-|[]]; reflexivity|]. intros m fuel. unfold expand.
  change (index_create within) with (Ok within_index). cbn [bind d_peripherals within a_device].
  cbn [concatM]. unfold expand_peripheral at 1. cbn [info p_derived_from a_peripheral bind fst snd p_registers concatM opt_default p_name].
  destruct fuel as [|k]; [reflexivity|].
  cbn [expand_rc info a_cluster c_derived_from bind fst snd opt_default c_name c_children concatM].
  change (new_cluster (bp_new "P") "K") with (BlockPath "P" ["K"%string]).
  rewrite within_forever. reflexivity.
Qed.
Print Assumptions C38_nested_refuted.

(** ** C39, C40: property defaults *)
Theorem C39_filled : forall d, same_but_peripherals d (expand_properties d) /\
  Forall2 (filled_peripheral (d_default_properties d)) (d_peripherals d) (d_peripherals (expand_properties d)).
Proof. exact expand_properties_filled. Qed.
Print Assumptions C39_filled.
Theorem C40_twice : forall d, expand_properties (expand_properties d) = expand_properties d.
Proof. exact expand_properties_twice. Qed.
Print Assumptions C40_twice.
Example C39_example :
  map (fun p => map (fun rc => match rc with RCRegister r => rp_size (r_properties (info r)) | _ => None end)
                    (or_empty (p_registers (info p)))) (d_peripherals (expand_properties timers)) = [[Some 32; None]; []] /\
  expand_properties timers <> timers.
Proof. split; [reflexivity|]. intros E. apply (f_equal (fun d => map (fun p => p_registers (info p)) (d_peripherals d))) in E. discriminate E. Qed.
