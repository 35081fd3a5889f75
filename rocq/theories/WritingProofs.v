(** For C82: when the encoder panics. *)
From Verif Require Import Base BaseFacts Num NumProofs Types Names Arrays Config Sort Xml Encode SpecNum SpecArray ArrayProofs IndexProofs
  SpecParse TreeFacts SpecSort SortProofs PropSort SpecRound SpecWriting.
From Coq Require Import Permutation.

(** The outcome is a panic for a reason in [F], or a value and there is no reason. *)
Definition says {A} (r : res A) (F : panic -> Prop) : Prop :=
  (exists a, r = Ok a /\ forall p, ~ F p) \/ exists p, r = Panic p /\ F p.
Lemma says_iff {A} (r : res A) (F G : panic -> Prop) : says r F -> (forall p, F p <-> G p) -> says r G.
Proof. intros [(a & -> & N)|(p & -> & P)] H; [left; exists a; split; auto; intros p X; now apply (N p), H|right; exists p; split; auto; now apply H]. Qed.
Lemma says_ok {A} (a : A) (F : panic -> Prop) : (forall p, ~ F p) -> says (Ok a) F.
Proof. left; eauto. Qed.
Lemma says_bind {A B} (r : res A) (k : A -> res B) (F G : panic -> Prop) : says r F -> (forall a, r = Ok a -> says (k a) G) ->
  says (bind r k) (fun p => F p \/ G p).
Proof.
  intros [(a & -> & N)|(p & -> & P)] K; cbn [bind].
  - destruct (K a eq_refl) as [(b & -> & M)|(p & -> & P)]; [left; exists b; split; auto; intros p [X|X]; [now apply (N p)|now apply (M p)]|right; eauto].
  - right; eauto.
Qed.
Lemma says_then {A B} (r : res A) (k : A -> B) (F : panic -> Prop) : says r F -> says (bind r (fun a => Ok (k a))) F.
Proof. intros [(a & -> & N)|(p & -> & P)]; cbn [bind]; [left; eauto|right; eauto]. Qed.
Lemma says_mapM {A B} (f : A -> res B) (F : A -> panic -> Prop) l : (forall a, In a l -> says (f a) (F a)) ->
  says (mapM f l) (fun p => exists a, In a l /\ F a p).
Proof.
  induction l as [|a l IH]; intros H; cbn [mapM]; [apply says_ok; intros p (a & [] & _)|].
  eapply says_iff.
  - apply says_bind with (G := fun p => exists a, In a l /\ F a p); [apply (H a); now left|].
    intros b E. apply says_then. apply IH. intros; apply H; now right.
  - cbn. intros p. split; [intros [X|(c & I & X)]; eauto|intros (c & [<-|I] & X); eauto].
Qed.

(** ** Indexes *)
Lemma index_number_spec s : index_number s <-> exists v, parse_dec pow32 s = Some v /\ to_string v = s.
Proof.
  split.
  - intros (v & N & B). exists v. apply numeral_to_string in N. subst. split; [now apply parse_to_string|reflexivity].
  - intros (v & P & <-). exists v. split; [apply to_string_numeral|]. apply parse_dec_signed in P; [tauto|reflexivity].
Qed.
Lemma loop_short d is : forall pre n, de_index d = Some (pre ++ is) -> (List.length is < n)%nat ->
  says (canonical_loop d (map N.of_nat (seq (List.length pre) n))) (fun p => p = OutOfBounds /\ Forall index_number is).
Proof.
  induction is as [|s is IH]; intros pre n D L; (destruct n as [|n]; [cbn in L; lia|]); cbn [seq map canonical_loop]; unfold index_at; rewrite D;
    unfold index_N, nth_N; rewrite Nat2N.id.
  - rewrite app_nil_r. replace (nth_error pre _) with (@None string) by (symmetry; now apply nth_error_None). right. exists OutOfBounds. cbn. auto.
  - rewrite nth_error_app2, Nat.sub_diag by lia. cbn [nth_error bind].
    assert (R : says (canonical_loop d (map N.of_nat (seq (S (List.length pre)) n))) (fun p => p = OutOfBounds /\ Forall index_number is)).
    { replace (S (List.length pre)) with (List.length (pre ++ [s])) by (rewrite app_length; cbn; lia). apply IH; [now rewrite <- app_assoc|cbn in L; lia]. }
    destruct (parse_dec pow32 s) as [v|] eqn:P.
    + destruct (seqb (to_string v) s) eqn:Q; cbn [negb].
      * apply seqb_eq in Q.
        assert (I : index_number s) by (apply index_number_spec; eauto).
        destruct R as [(a & -> & N)|(p & -> & E & F)]; cbn [bind].
        -- left. destruct a as [vs|]; [exists (Some (v :: vs))|exists None]; (split; [reflexivity|]); intros p (E & F); inversion F; subst; apply (N OutOfBounds); auto.
        -- right. exists p. auto.
      * apply says_ok. intros p (_ & F). inversion F as [|? ? I]; subst. apply index_number_spec in I as (w & W & <-).
        rewrite P in W. injection W as ->. rewrite seqb_refl in Q. discriminate.
    + apply says_ok. intros p (_ & F). inversion F as [|? ? I]; subst. apply index_number_spec in I as (w & W & _). congruence.
Qed.
Definition dim_fault (m : mode) (d : dim_element) (p : panic) : Prop :=
  exists is, de_index d = Some is /\ (p = OutOfBounds /\ too_few d is \/ m = Debug /\ p = Overflow /\ both_ends d is).
Lemma range_no_err m d e : indexes_as_range m d <> Err e.
Proof.
  unfold indexes_as_range. intros E.
  assert (C : forall is e, canonical_loop d is <> Err e).
  { induction is as [|i is IH]; cbn [canonical_loop]; intros e' X; [discriminate|]. unfold index_at, index_N in X.
    destruct (de_index d) as [l|]; [destruct (nth_N l i); [|discriminate]|]; cbn [bind] in X;
      (destruct (parse_dec pow32 _); [|discriminate]); (destruct (negb _); [discriminate|]);
      destruct (canonical_loop d is) as [[x|]| |] eqn:Y; cbn [bind] in X; try discriminate; now apply (IH e0). }
  destruct (canonical_loop d (upto (de_dim d))) as [[vs|]|e'|p] eqn:Z; cbn [bind] in E; try discriminate; [|now apply (C _ _ Z)].
  destruct (list_min vs), (list_max vs); try discriminate.
  unfold sub32, sub_w in E. destruct (n <=? n0), m; cbn [bind] in E; try discriminate;
    unfold add32, add_w in E; destruct (_ <? _); cbn [bind] in E; try discriminate;
    destruct (negb _); try discriminate; destruct (zip_eq _ _ _); discriminate.
Qed.
Lemma firstn_nth {A} n (l : list A) i : (i < n)%nat -> nth_error (firstn n l) i = nth_error l i.
Proof.
  revert n i; induction l as [|a l IH]; intros [|n] [|i] H; cbn; try lia; auto. now rewrite IH by lia.
Qed.
Lemma range_says m d is : de_dim d < 2 ^ 32 -> de_index d = Some is -> says (indexes_as_range m d) (dim_fault m d).
Proof.
  intros B D. destruct (N.ltb_spec (N.of_nat (List.length is)) (de_dim d)) as [L|L].
  - pose proof (loop_short d is [] (N.to_nat (de_dim d)) D) as S. cbn [List.length] in S. unfold indexes_as_range, upto.
    destruct S as [(a & E & N)|(p & E & P & F)]; [lia| |].
    + rewrite E. cbn [bind].
      assert (NF : forall p, ~ dim_fault m d p).
      { intros p (is' & D' & [(P & L' & F)|(_ & _ & L' & _)]); rewrite D in D'; injection D' as <-; [now apply (N p)|lia]. }
      destruct a as [vs|]; [|now apply says_ok]. exfalso.
      apply canonical_loop_ok in E. assert (I : In (N.of_nat (List.length is)) (map N.of_nat (seq 0 (N.to_nat (de_dim d))))).
      { apply in_map. apply in_seq. lia. }
      destruct (Forall2_in_l _ _ _ E _ I) as (v & _ & W & _). apply index_at_text in W. unfold index_text in W. rewrite D in W.
      assert (nth_error is (N.to_nat (N.of_nat (List.length is))) = None) by (apply nth_error_None; lia). congruence.
    + rewrite E. cbn [bind]. right. exists p. split; [reflexivity|]. exists is. split; [exact D|]. left. unfold too_few. auto.
  - assert (X : forall i, i < de_dim d -> exists s, index_text d i s).
    { intros i Hi. unfold index_text. rewrite D. destruct (nth_error is (N.to_nat i)) as [s|] eqn:E; [eauto|]. apply nth_error_None in E. lia. }
    assert (T0 : to_string 0 = "0"%string) by reflexivity.
    assert (T1 : to_string u32_max = "4294967295"%string) by reflexivity.
    assert (U : forall s, In s (firstn (N.to_nat (de_dim d)) is) <-> exists i, i < de_dim d /\ index_text d i s).
    { intros s. unfold index_text. rewrite D. split.
      - intros I. apply In_nth_error in I as (i & I). assert (i < N.to_nat (de_dim d))%nat.
        { assert (Y : nth_error (firstn (N.to_nat (de_dim d)) is) i <> None) by congruence. apply nth_error_Some in Y. rewrite firstn_length in Y. lia. }
        exists (N.of_nat i). split; [lia|]. rewrite Nat2N.id. now rewrite firstn_nth in I.
      - intros (i & Hi & I). apply nth_error_In with (N.to_nat i). now rewrite firstn_nth by lia. }
    assert (C : forall p, indexes_as_range m d = Panic p <-> dim_fault m d p).
    { intros p. rewrite indexes_as_range_panic; auto. split.
      - intros (M & P & A & Z & T). exists is. split; [exact D|]. right. conjs; auto. unfold both_ends. conjs; auto.
        + apply Forall_forall. intros s I. apply U in I as (i & Hi & S). destruct (A i Hi) as (s' & v & S' & N & V).
          unfold index_text in S, S'. rewrite D in S, S'. rewrite S in S'. injection S' as <-. exists v. auto.
        + rewrite <- T0. now apply U.
        + rewrite <- T1. now apply U.
      - intros (is' & D' & [(_ & L' & _)|(M & P & _ & F & Z & T)]); rewrite D in D'; injection D' as <-; [lia|]. conjs; auto.
        + intros i Hi. destruct (X i Hi) as (s & S). rewrite Forall_forall in F. destruct (F s) as (v & N & V); [apply U; eauto|]. exists s, v. auto.
        + rewrite T0. now apply U.
        + rewrite T1. now apply U. }
    destruct (indexes_as_range m d) as [r|e|p] eqn:E.
    + apply says_ok. intros p F. apply C in F. discriminate.
    + now apply range_no_err in E.
    + right. exists p. split; [reflexivity|]. now apply C.
Qed.

(** ** Sorting *)
Section Sorting.
  Context {A : Type} (offset : A -> N) (name : A -> string) (derived : A -> bool) (P : A -> Prop).
  Hypothesis D : forall a, derived a = true <-> P a.
  Lemma items_says m s l : says (sort_items m offset name s l)
    (fun p => p = Overflow /\ m = Debug /\ s = Some ByOffsetReversed /\ unsortable offset l).
  Proof.
    destruct (sort_items_cases offset name m s l) as [E|(M & S & L & X & E)].
    - left. eexists. split; [exact E|]. intros p (_ & -> & S & L & X).
      rewrite (sort_items_panic offset name s l S L X) in E. discriminate.
    - right. exists Overflow. split; [exact E|]. unfold unsortable. auto.
  Qed.
  Lemma derivable_says m s l : says (sort_derivable m offset name derived s l)
    (fun p => p = Overflow /\ m = Debug /\ exists g, sorted_together P s l g /\ unsortable offset g).
  Proof.
    destruct s as [s|s]; cbn [sort_derivable].
    - eapply says_iff; [apply items_says|]. unfold sorted_together. intros p. split.
      + intros (-> & -> & -> & U). conjs; auto. exists l. auto.
      + intros (-> & -> & g & [(E & ->)|(E & _)] & U); [|discriminate]. injection E as ->. auto.
    - eapply says_iff.
      + apply says_bind; [apply items_says|]. intros a _. apply says_then. apply items_says.
      + cbn. intros p. pose proof (split_by_filter _ _ l D) as S. split.
        * intros [(-> & -> & -> & U)|(-> & -> & -> & U)]; conjs; auto; eexists; (split; [right; split; [reflexivity|]; do 2 eexists; split; [exact S|]|exact U]); auto.
        * intros (-> & -> & g & [(E & _)|(E & a & b & S' & G)] & U); [discriminate|]. injection E as ->.
          destruct (split_by_inv _ _ _ _ _ D S') as [-> ->]. destruct G as [->| ->]; [right|left]; auto.
  Qed.
End Sorting.
Lemma peripherals_says m s l : says (sort_peripherals m s l)
  (fun p => p = Overflow /\ m = Debug /\ exists g, sorted_together (fun p => p_derived_from (info p) <> None) s l g /\ unsortable (fun p => p_base_address (info p)) g).
Proof. apply derivable_says. intros a. apply is_some_neq. Qed.
Lemma fields_says m s l : says (sort_fields m s l)
  (fun p => p = Overflow /\ m = Debug /\ exists g,
    sorted_together (fun f => f_derived_from (info f) <> None \/ exists e, In e (f_enumerated_values (info f)) /\ evs_derived_from e <> None) s l g /\
    unsortable (fun f => br_offset (f_bit_range (info f))) g).
Proof. apply derivable_says. intros a. apply field_derived_spec. Qed.
Lemma rcs_says m s l : says (sort_rcs m s l)
  (fun p => p = Overflow /\ m = Debug /\ exists g, sorted_together entry_derived s l g /\ unsortable entry_offset g).
Proof.
  eapply says_iff; [apply derivable_says; intros a; apply entry_derived_spec|].
  assert (U : forall g, unsortable rc_address_offset g <-> unsortable entry_offset g).
  { intros g. unfold unsortable. split; intros (L & x & I & E); (split; [exact L|]); exists x; (split; [exact I|]); now destruct x. }
  intros p. cbn. split; intros (-> & -> & g & S & X); conjs; auto; exists g; (split; [exact S|]); now apply U.
Qed.
Lemma registers_says m s l : says (sort_registers m s l)
  (fun p => p = Overflow /\ m = Debug /\ exists g, entries_together s l g /\ unsortable entry_offset g).
Proof.
  assert (G : forall d b, says (rc_sort m l d b) (fun p => p = Overflow /\ m = Debug /\ exists g,
    (exists r c, split_by (fun x => exists y, x = RCRegister y) l r c /\ (sorted_together entry_derived d r g \/ sorted_together entry_derived d c g)) /\
    unsortable entry_offset g)).
  { intros d b. unfold rc_sort. eapply says_iff.
    - apply says_bind; [apply rcs_says|]. intros a _. apply says_then. apply rcs_says.
    - cbn. intros p. pose proof (split_by_filter _ _ l is_register_spec) as S. split.
      + intros [(-> & -> & g & T & U)|(-> & -> & g & T & U)]; conjs; auto; exists g; (split; [|exact U]); do 2 eexists; (split; [exact S|]); auto.
      + intros (-> & -> & g & (r & c & S' & T) & U). destruct (split_by_inv _ _ _ _ _ is_register_spec S') as [-> ->].
        destruct T as [T|T]; [left|right]; eauto. }
  destruct s as [s|s|s]; cbn [sort_registers entries_together]; [apply rcs_says|apply G|apply G].
Qed.

(** ** Elements *)
Section Elements.
  Variables (m : mode) (conv : id_format -> string -> string) (cfg : config).
  Lemma bits_says b : says (bit_range_encode m cfg b) (fun p => p = Overflow /\ m = Debug /\ last_bit_written cfg b /\ no_last_bit b).
  Proof.
    assert (M : says (br_msb m b) (fun p => p = Overflow /\ m = Debug /\ no_last_bit b)).
    { unfold br_msb, add32, add_w, no_last_bit. change (2 ^ 32) with pow32. destruct (N.ltb_spec (br_offset b + br_width b) pow32) as [L|L]; cbn [bind].
      - unfold sub32, sub_w. destruct (N.leb_spec 1 (br_offset b + br_width b)); [apply says_ok; intros p (_ & _ & X); lia|].
        destruct m; [right; exists Overflow; conjs; auto; left; lia|apply says_ok; intros p (_ & X & _); discriminate].
      - destruct m; cbn [bind]; [right; exists Overflow; conjs; auto|].
        unfold sub32, sub_w. destruct (_ <=? _); apply says_ok; intros p (_ & X & _); discriminate. }
    unfold bit_range_encode.
    assert (W : last_bit_written cfg b <-> opt_default (br_type b) (cfg_field_bit_range cfg) <> BRT_OffsetWidth).
    { unfold last_bit_written. destruct (cfg_field_bit_range cfg) as [t|]; cbn [opt_default]; split.
      - intros [(X & _)|(t' & E & X)]; [discriminate|]. now injection E as ->.
      - intros X. right. eauto.
      - intros [(_ & X)|(t' & E & X)]; [exact X|discriminate].
      - intros X. left. auto. }
    destruct (opt_default (br_type b) (cfg_field_bit_range cfg)) eqn:E.
    - eapply says_iff; [apply says_then; unfold br_text; apply says_then; exact M|]. cbn. intros p. rewrite W. split; intros X; [|tauto].
      destruct X as (A & B & C). conjs; auto; discriminate.
    - apply says_ok. intros p (_ & _ & X & _). now apply W in X.
    - eapply says_iff; [apply says_then; exact M|]. cbn. intros p. rewrite W. split; intros X; [|tauto].
      destruct X as (A & B & C). conjs; auto; discriminate.
  Qed.
  Lemma de_says d : de_dim d < 2 ^ 32 -> says (de_encode m conv cfg d) (dim_fault m d).
  Proof.
    intros B. unfold de_encode. destruct (de_index d) as [is|] eqn:D; [|apply says_ok; intros p (is & E & _); congruence].
    apply says_then. apply says_then. now apply range_says with is.
  Qed.
  Definition own (x : panic -> Prop) (o : option dim_element) (p : panic) : Prop := (exists d, o = Some d /\ dim_fault m d p) \/ x p.
  Definition dim_of {A} (x : maybe_array A) : option dim_element := match x with Single _ => None | Array _ d => Some d end.
  Lemma ma_says {A} t (f : A -> res xml) (F : panic -> Prop) x : (forall a d, x = Array a d -> de_dim d < 2 ^ 32) ->
    says (f (info x)) F -> says (ma_encode m conv cfg t f x) (own F (dim_of x)).
  Proof.
    intros B H. destruct x as [a|a d]; cbn [ma_encode info dim_of] in *.
    - eapply says_iff; [exact H|]. unfold own. intros p. split; [auto|]. intros [(d & E & _)|X]; [discriminate|exact X].
    - eapply says_iff; [apply says_bind; [apply de_says; eapply B; reflexivity|intros de _; apply says_then; exact H]|].
      unfold own. intros p. cbn. split; [intros [X|X]; eauto|intros [(d' & E & X)|X]; auto]. injection E as ->. auto.
  Qed.
  Definition field_fault (f : field) (p : panic) : Prop :=
    (exists d, dim_of f = Some d /\ dim_fault m d p) \/
    p = Overflow /\ m = Debug /\ last_bit_written cfg (f_bit_range (info f)) /\ no_last_bit (f_bit_range (info f)).
  Lemma field_says f : (forall a d, f = Array a d -> de_dim d < 2 ^ 32) -> says (field_encode m conv cfg f) (field_fault f).
  Proof. intros B. unfold field_encode. apply ma_says; [exact B|]. unfold field_info_encode. apply says_then. apply bits_says. Qed.
  Definition fields_fault (r : register) (p : panic) : Prop :=
    exists fs, r_fields (info r) = Some fs /\
      ((p = Overflow /\ m = Debug /\ exists g,
          sorted_together (fun f => f_derived_from (info f) <> None \/ exists e, In e (f_enumerated_values (info f)) /\ evs_derived_from e <> None)
            (cfg_field_sorting cfg) fs g /\ unsortable (fun f => br_offset (f_bit_range (info f))) g) \/
       exists f, In f fs /\ field_fault f p).
  Definition small (rc : register_cluster) : Prop := forall n d, array_in_rc rc n d -> de_dim d < 2 ^ 32.
  Lemma perm_in {A} (l l' : list A) (F : A -> Prop) : Permutation l l' -> (exists a, In a l' /\ F a) <-> exists a, In a l /\ F a.
  Proof. intros P. split; intros (a & I & X); exists a; (split; [|exact X]); eapply Permutation_in; try exact I; auto. now apply Permutation_sym. Qed.
  Lemma register_says r : small (RCRegister r) -> says (register_encode m conv cfg r) (own (fields_fault r) (dim_of r)).
  Proof.
    intros B. unfold register_encode. apply ma_says; [intros a d ->; apply (B (r_name a)); constructor|].
    unfold register_info_encode. apply says_then. unfold fields_fault. destruct (r_fields (info r)) as [fs|] eqn:E;
      [|apply says_ok; intros p (fs & X & _); discriminate].
    eapply says_iff.
    - apply says_bind; [apply fields_says|]. intros s S. apply says_then.
      eapply says_iff; [apply says_mapM with (F := field_fault)|].
      + intros f I. apply field_says. intros a d ->. apply (B (f_name a)). apply ac_in_register. apply ar_field with fs; auto.
        destruct (C28_same_elements m) as (_ & P & _). apply P in S. eapply Permutation_in; [apply Permutation_sym; exact S|exact I].
      + intros p. destruct (C28_same_elements m) as (_ & P & _). apply P in S.
        exact (perm_in fs s (fun f => field_fault f p) S).
    - cbn. intros p. split; [intros X; exists fs; auto|intros (fs' & X & Y); injection X as <-; exact Y].
  Qed.
  Inductive rc_fault : register_cluster -> panic -> Prop :=
    | rcf_register r p : own (fields_fault r) (dim_of r) p -> rc_fault (RCRegister r) p
    | rcf_array c d p : dim_of c = Some d -> dim_fault m d p -> rc_fault (RCCluster c) p
    | rcf_child c rc p : In rc (c_children (info c)) -> rc_fault rc p -> rc_fault (RCCluster c) p.
  Lemma rc_says rc : small rc -> says (rc_encode m conv cfg rc) (rc_fault rc).
  Proof.
    induction rc as [r|c IH] using rc_tree_ind; intros B; cbn [rc_encode].
    - eapply says_iff; [now apply register_says|]. intros p. split; [now constructor|]. intros X. now inversion X.
    - eapply says_iff.
      + apply ma_says; [intros a d ->; apply (B (c_name a)); constructor|]. unfold cluster_info_encode. apply says_then.
        apply says_mapM with (F := rc_fault). intros rc I. rewrite Forall_forall in IH. apply IH; [exact I|].
        intros n d X. apply (B n). now apply ac_child with rc.
      + intros p. unfold own. split.
        * intros [(d & E & X)|(rc & I & X)]; [now apply rcf_array with d|now apply rcf_child with rc].
        * intros X. inversion X; subst; [left|right]; eauto.
  Qed.
  Definition peripheral_fault (x : peripheral) (p : panic) : Prop :=
    (exists d, dim_of x = Some d /\ dim_fault m d p) \/
    exists rcs, p_registers (info x) = Some rcs /\
      ((p = Overflow /\ m = Debug /\ exists g, entries_together (cfg_register_cluster_sorting cfg) rcs g /\ unsortable entry_offset g) \/
       exists rc, In rc rcs /\ rc_fault rc p).
  Lemma peripheral_says x : (forall a d, x = Array a d -> de_dim d < 2 ^ 32) -> (forall n d, array_in_peripheral (info x) n d -> de_dim d < 2 ^ 32) ->
    says (peripheral_encode m conv cfg x) (peripheral_fault x).
  Proof.
    intros B1 B2. unfold peripheral_encode. apply ma_says; [exact B1|].
    unfold peripheral_info_encode. apply says_then. destruct (p_registers (info x)) as [rcs|] eqn:E;
      [|apply says_ok; intros p (rcs & X & _); discriminate].
    eapply says_iff.
    - apply says_bind; [apply registers_says|]. intros s S. apply says_then.
      destruct (C28_same_elements m) as (_ & _ & P). apply P in S.
      eapply says_iff; [apply says_mapM with (F := rc_fault)|].
      + intros rc I. apply rc_says. intros n d X. apply (B2 n). apply ap_child with rcs rc; auto.
        eapply Permutation_in; [apply Permutation_sym; exact S|exact I].
      + intros p. exact (perm_in rcs s (fun rc => rc_fault rc p) S).
    - cbn. intros p. split; [intros X; exists rcs; auto|intros (rcs' & X & Y); injection X as <-; exact Y].
  Qed.
  (** The reasons, told for the device *)
  Lemma field_array r fs f d : r_fields (info r) = Some fs -> In f fs -> dim_of f = Some d -> exists n, array_in_rc (RCRegister r) n d.
  Proof. intros E I D. destruct f as [a|a d']; [discriminate|]. injection D as ->. exists (f_name a). apply ac_in_register. now apply ar_field with fs. Qed.
  Lemma dim_fault_unwritable x n d p : array_in_device x n d -> dim_fault m d p -> unwritable m cfg x p.
  Proof. intros A (is & D & [(-> & F)|(M & -> & F)]); [now apply uw_few with n d is|now apply uw_ends with n d is]. Qed.
  Lemma rc_fault_out x rc p : rc_fault rc p -> (forall n d, array_in_rc rc n d -> array_in_device x n d) ->
    (forall r, register_under rc r -> register_of x r) -> unwritable m cfg x p.
  Proof.
    induction 1 as [r p [(d & D & F)|(fs & E & F)]|c d p D F|c rc p I F IH]; intros A R.
    - destruct r as [i|i d']; [discriminate|]. injection D as ->. eapply dim_fault_unwritable; [apply A; constructor|exact F].
    - destruct F as [(-> & M & g & S & U)|(f & I & [(d & D & F)|(-> & M & L & N)])].
      + eapply uw_fields; eauto. apply R. constructor.
      + destruct (field_array r fs f d E I D) as (n & X). eapply dim_fault_unwritable; [apply A; exact X|exact F].
      + eapply uw_bits; eauto. apply R. constructor.
    - destruct c as [i|i d']; [discriminate|]. injection D as ->. eapply dim_fault_unwritable; [apply A; constructor|exact F].
    - apply IH; [intros n d X; apply A; now apply ac_child with rc|intros r X; apply R; now apply ru_child with rc].
  Qed.
  Lemma rc_fault_array rc n d p : array_in_rc rc n d -> dim_fault m d p -> rc_fault rc p.
  Proof.
    induction 1 as [r d|r n d [fs f d' E I]|c d|c rc n d I A IH]; intros F.
    - constructor. left. exists d. auto.
    - constructor. right. exists fs. split; [exact E|]. right. exists (Array f d'). split; [exact I|]. left. exists d'. auto.
    - apply rcf_array with d; auto.
    - apply rcf_child with rc; auto.
  Qed.
  Lemma rc_fault_fields rc r p : register_under rc r -> fields_fault r p -> rc_fault rc p.
  Proof. induction 1; intros F; [constructor; now right|apply rcf_child with rc; auto]. Qed.
  Lemma device_says x : (forall n d, array_in_device x n d -> de_dim d < 2 ^ 32) -> says (device_encode m conv cfg x) (unwritable m cfg x).
  Proof.
    intros B. unfold device_encode. eapply says_iff.
    - apply says_bind; [apply peripherals_says|]. intros s S. apply says_then.
      destruct (C28_same_elements m) as (P & _ & _). apply P in S.
      eapply says_iff; [apply says_mapM with (F := peripheral_fault)|].
      + intros y I. assert (I' : In y (d_peripherals x)) by (eapply Permutation_in; [apply Permutation_sym; exact S|exact I]).
        apply peripheral_says; [intros a d ->; apply (B (p_name a)); now constructor|intros n d X; apply (B n); now apply ad_child with y].
      + intros p. exact (perm_in (d_peripherals x) s (fun y => peripheral_fault y p) S).
    - cbn. intros p. split.
      + intros [(-> & M & g & T & U)|(y & I & [(d & D & F)|(rcs & E & [(-> & M & g & T & U)|(rc & I' & F)])])].
        * eapply uw_peripherals; eauto.
        * destruct y as [i|i d']; [discriminate|]. injection D as ->. eapply dim_fault_unwritable; [apply ad_peripheral; exact I|exact F].
        * eapply uw_registers; eauto.
        * apply (rc_fault_out x rc p F); [intros n d A; apply ad_child with y; [exact I|]; now apply ap_child with rcs rc|].
          intros r R. now apply ro_in with y rcs rc.
      + assert (K : forall q n d, array_in_device x n d -> dim_fault m d q -> exists y, In y (d_peripherals x) /\ peripheral_fault y q).
        { intros q n d [i d' I|y n' d' I [rcs rc n'' d'' E I' A]] F; [exists (Array i d'); split; [exact I|]; left; exists d'; auto|].
          exists y. split; [exact I|]. right. exists rcs. split; [exact E|]. right. exists rc. split; [exact I'|]. now apply rc_fault_array with n'' d''. }
        assert (R : forall q r, register_of x r -> fields_fault r q -> exists y, In y (d_peripherals x) /\ peripheral_fault y q).
        { intros q r [y rcs rc I E I' U] F. exists y. split; [exact I|]. right. exists rcs. split; [exact E|]. right. exists rc. split; [exact I'|].
          now apply rc_fault_fields with r. }
        intros [g M T U|y rcs g M I E T U|r fs g M I E T U|r fs f M I E I' L N|n d is A D F|n d is M A D F].
        * left. conjs; auto. eauto.
        * right. exists y. split; [exact I|]. right. exists rcs. split; [exact E|]. left. conjs; auto. eauto.
        * right. apply (R _ r I). exists fs. split; [exact E|]. left. conjs; auto. eauto.
        * right. apply (R _ r I). exists fs. split; [exact E|]. right. exists f. split; [exact I'|]. right. auto.
        * right. apply (K _ n d A). exists is. auto.
        * right. apply (K _ n d A). exists is. auto.
  Qed.
End Elements.
