(** C28, C29: sorting the encoder's output. *)
From Coq Require Import Permutation Sorting.Sorted.
From Verif Require Import Base BaseFacts Types Config Sort SpecSort SortProofs.

(** C28: nothing is lost, added or duplicated. *)
Theorem C28_same_elements : forall m,
  (forall s l out, sort_peripherals m s l = Ok out -> Permutation l out) /\
  (forall s l out, sort_fields m s l = Ok out -> Permutation l out) /\
  (forall s l out, sort_registers m s l = Ok out -> Permutation l out).
Proof.
  intros m. conjs; intros s l out.
  - unfold sort_peripherals. intros E.
    match type of E with sort_derivable _ ?o ?n ?d _ _ = _ =>
      destruct (sort_derivable_cases o n d m s l) as [R|(_ & _ & _ & R)] end; [|congruence].
    rewrite R in E. injection E as <-. apply runs_perm.
  - unfold sort_fields. intros E.
    match type of E with sort_derivable _ ?o ?n ?d _ _ = _ =>
      destruct (sort_derivable_cases o n d m s l) as [R|(_ & _ & _ & R)] end; [|congruence].
    rewrite R in E. injection E as <-. apply runs_perm.
  - intros E. destruct (sort_registers_cases m s l) as [R|(_ & _ & _ & R)]; [|congruence].
    rewrite R in E. injection E as <-. apply rc_runs_perm.
Qed.
Print Assumptions C28_same_elements.

(** C28: the requested order, exactly: sorting succeeds with the one stable reordering. *)
Theorem C28_peripherals : forall m s l out,
  (reversed s -> forall p, In p l -> p_base_address (info p) < 2147483648) ->
  (sort_peripherals m s l = Ok out <-> peripheral_order s l out).
Proof.
  intros m s l out H. unfold peripheral_order.
  rewrite <- (runs_order _ _ (fun p => is_some (p_derived_from (info p))))
    by ((intros; apply is_some_neq) || (intros K; apply H; now apply reversed_key)).
  unfold sort_peripherals.
  match goal with |- sort_derivable _ ?o ?n ?d _ _ = _ <-> _ =>
    destruct (sort_derivable_cases o n d m s l) as [R|(_ & K & (a & Ha & X) & _)] end.
  - rewrite R. split; [intros E; injection E as <-; reflexivity|intros ->; reflexivity].
  - apply reversed_key in K. specialize (H K a Ha). rewrite N.mod_small in X by lia. lia.
Qed.
Print Assumptions C28_peripherals.
Theorem C28_fields : forall m s l out,
  (reversed s -> forall f, In f l -> br_offset (f_bit_range (info f)) < 2147483648) ->
  (sort_fields m s l = Ok out <-> field_order s l out).
Proof.
  intros m s l out H. unfold field_order.
  rewrite <- (runs_order _ _ field_derived)
    by ((intros; apply field_derived_spec) || (intros K; apply H; now apply reversed_key)).
  unfold sort_fields.
  match goal with |- sort_derivable _ ?o ?n ?d _ _ = _ <-> _ =>
    destruct (sort_derivable_cases o n d m s l) as [R|(_ & K & (a & Ha & X) & _)] end.
  - rewrite R. split; [intros E; injection E as <-; reflexivity|intros ->; reflexivity].
  - apply reversed_key in K. specialize (H K a Ha). rewrite N.mod_small in X by lia. lia.
Qed.
Print Assumptions C28_fields.
Theorem C28_registers : forall m s l out,
  (rc_reversed s -> forall rc, In rc l -> entry_offset rc < 2147483648) ->
  (sort_registers m s l = Ok out <-> registers_order s l out).
Proof.
  intros m s l out H. rewrite <- rc_runs_order by exact H.
  destruct (sort_registers_cases m s l) as [R|(_ & K & (a & Ha & X) & _)].
  - rewrite R. split; [intros E; injection E as <-; reflexivity|intros ->; reflexivity].
  - specialize (H K a Ha). rewrite N.mod_small in X by lia. lia.
Qed.
Print Assumptions C28_registers.

(** C28: the specification determines the result. *)
Theorem C28_unique : forall {A} (offset : A -> N) (name : A -> string) s l out out',
  (s = Some ByOffsetReversed -> forall a, In a l -> offset a < 2147483648) ->
  in_order offset name s l out -> in_order offset name s l out' -> out = out'.
Proof. intros A o n s l out out' H E E'. apply run_in_order in E, E'; auto. congruence. Qed.
Print Assumptions C28_unique.

(** C28: sorting twice is sorting once, for every address. *)
Theorem C28_idempotent : forall m,
  (forall s l out, sort_peripherals m s l = Ok out -> sort_peripherals m s out = Ok out) /\
  (forall s l out, sort_fields m s l = Ok out -> sort_fields m s out = Ok out) /\
  (forall s l out, sort_registers m s l = Ok out -> sort_registers m s out = Ok out).
Proof.
  assert (G : forall A (o : A -> N) n d m s l out, sort_derivable m o n d s l = Ok out ->
    sort_derivable m o n d s out = Ok out).
  { intros A o n d m s l out E.
    destruct (sort_derivable_cases o n d m s out) as [R|(-> & K & (a & Ha & X) & R)].
    - rewrite R. destruct (sort_derivable_cases o n d m s l) as [Q|(_ & _ & _ & Q)]; [|congruence].
      rewrite Q in E. injection E as <-. now rewrite runs_id.
    - exfalso.
      assert (P : out = runs o n d s l).
      { destruct (sort_derivable_cases o n d Debug s l) as [Q|(_ & _ & _ & Q)]; congruence. }
      destruct s as [s|s]; cbn [key_of] in K; subst s; cbn [sort_derivable runs] in *.
      + destruct (sort_items_cases o n Debug (Some ByOffsetReversed) out) as [Q|(_ & _ & L & _)]; [congruence|].
        rewrite sort_items_panic in E; [discriminate|reflexivity| |].
        * subst out. now rewrite <- (Permutation_length (run_perm o n _ l)) in L.
        * exists a. split; auto. subst out. apply (Permutation_in _ (Permutation_sym (run_perm o n _ l)) Ha).
      + subst out. rewrite !filter_app in R.
        set (c := filter (fun a0 => negb (d a0)) l) in *. set (e := filter d l) in *.
        assert (Hc : forall x, In x (run o n (Some ByOffsetReversed) c) -> d x = false).
        { intros x Hx. apply (Permutation_in _ (Permutation_sym (run_perm o n _ _))) in Hx.
          apply filter_In in Hx as [_ Hx]. now destruct (d x). }
        assert (He : forall x, In x (run o n (Some ByOffsetReversed) e) -> d x = true).
        { intros x Hx. apply (Permutation_in _ (Permutation_sym (run_perm o n _ _))) in Hx.
          now apply filter_In in Hx as [_ Hx]. }
        rewrite (filter_all (fun x => negb (d x)) (run o n (Some ByOffsetReversed) c)) in R
          by (intros x Hx; now rewrite (Hc x Hx)).
        rewrite (filter_none (fun x => negb (d x)) (run o n (Some ByOffsetReversed) e)) in R
          by (intros x Hx; now rewrite (He x Hx)).
        rewrite (filter_none d _ Hc), (filter_all d _ He), app_nil_r in R. cbn [app] in R.
        assert (I : forall t u, sort_items Debug o n (Some ByOffsetReversed) t = Ok u ->
           sort_items Debug o n (Some ByOffsetReversed) (run o n (Some ByOffsetReversed) t) = Ok u).
        { intros t u T. assert (U : u = run o n (Some ByOffsetReversed) t).
          { destruct (sort_items_cases o n Debug (Some ByOffsetReversed) t) as [Q|(_ & _ & _ & _ & Q)]; congruence. }
          subst u.
          destruct (sort_items_cases o n Debug (Some ByOffsetReversed) (run o n (Some ByOffsetReversed) t))
            as [Q|(_ & _ & L & (z & Hz & Z) & _)]; [now rewrite run_id in Q|].
          rewrite sort_items_panic in T; [discriminate|reflexivity| |].
          - now rewrite <- (Permutation_length (run_perm o n _ t)) in L.
          - exists z. split; auto. apply (Permutation_in _ (Permutation_sym (run_perm o n _ t)) Hz). }
        apply bind_ok in E as (c' & C & E). apply bind_ok in E as (e' & E' & _).
        rewrite (I _ _ C) in R. cbn [bind] in R. rewrite (I _ _ E') in R. discriminate. }
  intros m. conjs; intros s l out; try apply G.
  intros E. destruct s as [s|s|s]; cbn [sort_registers] in *; [now apply (G _ _ _ _ m s l)| |];
    unfold rc_sort in *; apply bind_ok in E as (r & R & E); apply bind_ok in E as (c & C & E); injection E as <-;
    destruct (C28_same_elements m) as (_ & _ & P);
    pose proof (P (RcUnchanged s) _ _ R) as Pr; pose proof (P (RcUnchanged s) _ _ C) as Pc;
    (assert (Hr : forall x, In x r -> is_register x = true) by
      (intros x Hx; apply (Permutation_in _ (Permutation_sym Pr)) in Hx; now apply filter_In in Hx));
    (assert (Hc : forall x, In x c -> is_register x = false) by
      (intros x Hx; apply (Permutation_in _ (Permutation_sym Pc)) in Hx; apply filter_In in Hx as [_ Hx];
       now destruct (is_register x)));
    cbn [rc_sort]; rewrite !filter_app, (filter_all is_register r Hr), (filter_none is_register c Hc);
    rewrite (filter_none (fun x => negb (is_register x)) r) by (intros x Hx; now rewrite (Hr x Hx));
    rewrite (filter_all (fun x => negb (is_register x)) c) by (intros x Hx; now rewrite (Hc x Hx));
    rewrite ?app_nil_r; cbn [app];
    unfold sort_rcs in *; rewrite (G _ _ _ _ m s _ _ R); cbn [bind]; rewrite (G _ _ _ _ m s _ _ C); reflexivity.
Qed.
Print Assumptions C28_idempotent.

(** The only way sorting fails: a debug build asked for descending addresses meets an
    address whose low 32 bits are 0x80000000. *)
Theorem C28_total : forall m,
  (forall s l, (exists out, sort_peripherals m s l = Ok out) \/
     (m = Debug /\ reversed s /\ sort_peripherals m s l = Panic Overflow /\
      exists p, In p l /\ p_base_address (info p) mod 4294967296 = 2147483648)) /\
  (forall s l, (exists out, sort_fields m s l = Ok out) \/
     (m = Debug /\ reversed s /\ sort_fields m s l = Panic Overflow /\
      exists f, In f l /\ br_offset (f_bit_range (info f)) mod 4294967296 = 2147483648)) /\
  (forall s l, (exists out, sort_registers m s l = Ok out) \/
     (m = Debug /\ rc_reversed s /\ sort_registers m s l = Panic Overflow /\
      exists rc, In rc l /\ entry_offset rc mod 4294967296 = 2147483648)).
Proof.
  intros m. conjs; intros s l; unfold sort_peripherals, sort_fields.
  - match goal with |- (exists x, sort_derivable _ ?o ?n ?d _ _ = _) \/ _ =>
      destruct (sort_derivable_cases o n d m s l) as [R|(-> & K & X & R)] end; [left; eauto|].
    right. apply reversed_key in K. auto.
  - match goal with |- (exists x, sort_derivable _ ?o ?n ?d _ _ = _) \/ _ =>
      destruct (sort_derivable_cases o n d m s l) as [R|(-> & K & X & R)] end; [left; eauto|].
    right. apply reversed_key in K. auto.
  - destruct (sort_registers_cases m s l) as [R|(-> & K & X & R)]; [left; eauto|right; auto].
Qed.
Print Assumptions C28_total.

(** C29: below 2^31 descending addresses are descending. *)
Theorem C29_below_2_31 : forall m l out,
  (forall p, In p l -> p_base_address (info p) < 2147483648) ->
  sort_peripherals m (Unchanged (Some ByOffsetReversed)) l = Ok out ->
  StronglySorted (fun p q => p_base_address (info q) <= p_base_address (info p)) out.
Proof. intros m l out H E. apply C28_peripherals in E; auto. apply E. Qed.
Print Assumptions C29_below_2_31.

Definition peripheral_at (base : N) : peripheral :=
  Single {| p_name := "P"; p_display_name := None; p_version := None; p_description := None;
    p_alternate_peripheral := None; p_group_name := None; p_prepend_to_name := None;
    p_append_to_name := None; p_header_struct_name := None;
    p_base_address := base; p_default_properties := rp_default; p_address_block := None;
    p_interrupt := []; p_registers := None; p_derived_from := None |}.
Definition p_low := peripheral_at 1073741824.
Definition p_high := peripheral_at 3221225472.
Definition p_min := peripheral_at 2147483648.

(** C29 fails from 2^31 on: a release build writes a lower address first, ... *)
Theorem C29_descending_refuted : exists l out,
  sort_peripherals Release (Unchanged (Some ByOffsetReversed)) l = Ok out /\
  ~ StronglySorted (fun p q => p_base_address (info q) <= p_base_address (info p)) out.
Proof.
  exists [p_low; p_high; peripheral_at 0], [p_low; peripheral_at 0; p_high]. split; [reflexivity|].
  intros S. inversion S as [|? ? S' F]; subst.
  rewrite Forall_forall in F. specialize (F p_high (or_intror (or_introl eq_refl))).
  unfold p_low, p_high, peripheral_at, info in F. cbn [p_base_address] in F. lia.
Qed.
Print Assumptions C29_descending_refuted.
(** ... and a debug build does not write at all. *)
Theorem C29_panic_refuted : forall s l,
  s = Unchanged (Some ByOffsetReversed) -> (2 <= List.length l)%nat ->
  (exists p, In p l /\ p_base_address (info p) mod 4294967296 = 2147483648) ->
  sort_peripherals Debug s l = Panic Overflow.
Proof. intros s l -> L X. unfold sort_peripherals. cbn [sort_derivable]. now apply sort_items_panic. Qed.
Print Assumptions C29_panic_refuted.
(** Exactly then: two elements or more, and one whose address has these low 32 bits. *)
Theorem C29_panic_exact : forall m p,
  (forall l, sort_peripherals m (Unchanged (Some ByOffsetReversed)) l = Panic p <->
     p = Overflow /\ m = Debug /\ (2 <= List.length l)%nat /\ exists x, In x l /\ p_base_address (info x) mod 4294967296 = 2147483648) /\
  (forall l, sort_fields m (Unchanged (Some ByOffsetReversed)) l = Panic p <->
     p = Overflow /\ m = Debug /\ (2 <= List.length l)%nat /\ exists x, In x l /\ br_offset (f_bit_range (info x)) mod 4294967296 = 2147483648) /\
  (forall l, sort_registers m (RcUnchanged (Unchanged (Some ByOffsetReversed))) l = Panic p <->
     p = Overflow /\ m = Debug /\ (2 <= List.length l)%nat /\ exists x, In x l /\ rc_address_offset x mod 4294967296 = 2147483648).
Proof.
  assert (X : forall A (offset : A -> N) name m p l, sort_items m offset name (Some ByOffsetReversed) l = Panic p <->
    p = Overflow /\ m = Debug /\ (2 <= List.length l)%nat /\ exists x, In x l /\ offset x mod 4294967296 = 2147483648).
  { intros A offset name m p l. split.
    - intros E. destruct (sort_items_cases offset name m (Some ByOffsetReversed) l) as [R|(M & _ & L & Y & P)].
      + congruence.
      + rewrite E in P. injection P as ->. auto.
    - intros (-> & -> & L & Y). now apply sort_items_panic. }
  intros m p. conjs; intros l; apply X.
Qed.
Print Assumptions C29_panic_exact.
Example C29_panic_example :
  sort_peripherals Debug (Unchanged (Some ByOffsetReversed)) [p_low; p_min] = Panic Overflow.
Proof. reflexivity. Qed.

Example C28_example : exists out,
  sort_peripherals Debug (Unchanged (Some ByOffset)) [p_high; p_low; p_high] = Ok out /\
  out = [p_low; p_high; p_high] /\
  peripheral_order (Unchanged (Some ByOffset)) [p_high; p_low; p_high] out.
Proof.
  eexists. split; [reflexivity|]. split; [reflexivity|].
  apply (C28_peripherals Debug); [intros [E|E]; discriminate|reflexivity].
Qed.
