(** C75: a serde form is read as SpecKeys says, and nothing else. *)
From Verif Require Import BaseFacts Num NumProofs EnumProofs TreeFacts Types Arrays SpecNum SpecArray ArrayProofs IndexProofs BitProofs SpecText
  ParseProofs BuilderProofs SpecBuild SpecValidate SpecRound Serde SpecSerde SpecData SerdeProofs SerdeMore SpecRead ReadProofs SpecKeys PropSerde.

(** ** Entries *)
Class reads {A} (f : data -> res A) (R : data -> A -> Prop) : Prop := reads_iff : forall v x, f v = Ok x <-> R v x.
Class solid {A} (R : data -> A -> Prop) : Prop := not_null : forall x, ~ R DNull x.

Lemma at_none k es : at_key k es = [] <-> has_key k es = false.
Proof.
  unfold at_key. induction es as [|[k' v] es IH]; cbn; [split; reflexivity|]. destruct (seqb k' k) eqn:E; unfold seqb in E; rewrite E; cbn; [|exact IH].
  split; discriminate.
Qed.
Lemma at_cons k k' v es : at_key k ((k', v) :: es) = if seqb k' k then v :: at_key k es else at_key k es.
Proof. unfold at_key, seqb. cbn. now destruct (String.eqb k' k). Qed.
Lemma at_in k v es : In v (at_key k es) -> In (k, v) es.
Proof.
  induction es as [|[k' v'] es IH]; [intros []|]. rewrite at_cons. destruct (seqb k' k) eqn:E; intros H; cbn; auto.
  apply seqb_eq in E. subst. destruct H as [<-|H]; auto.
Qed.
Lemma entry_iff {A} k (f : data -> res A) es o : entry k f es = Ok o <->
  match o with Some x => exists v, at_key k es = [v] /\ f v = Ok x | None => at_key k es = [] end.
Proof.
  induction es as [|[k' v] es IH].
  - cbn. destruct o; split; try discriminate; auto. intros (v & H & _). discriminate.
  - cbn [entry]. destruct (seqb k' k) eqn:E.
    + rewrite bind_ok'. destruct o as [x|].
      * split.
        -- intros (a & F & H). destruct (has_key k es) eqn:K; [discriminate|]. injection H as ->. exists v. split; [|exact F].
           rewrite at_cons, E. apply at_none in K. now rewrite K.
        -- intros (w & H & F). rewrite at_cons, E in H. injection H as -> H. exists x. split; [exact F|]. apply at_none in H. now rewrite H.
      * rewrite at_cons, E. split; [|discriminate]. intros (a & _ & H). destruct (has_key k es); discriminate.
    + rewrite IH, at_cons, E. reflexivity.
Qed.
Lemma given_iff {A} k (f : data -> res A) (R : data -> A -> Prop) es x :
  (forall v, In (k, v) es -> (f v = Ok x <-> R v x)) -> need k f es = Ok x <-> given k R es x.
Proof.
  intros L. unfold need, given. rewrite bind_ok'. split.
  - intros ([a|] & E & H); [|discriminate]. injection H as ->. apply entry_iff in E as (v & H & F). exists v. split; [exact H|].
    apply L; [|exact F]. apply at_in. rewrite H. now left.
  - intros (v & H & F). exists (Some x). split; [|reflexivity]. apply entry_iff. exists v. split; [exact H|].
    apply L; [|exact F]. apply at_in. rewrite H. now left.
Qed.
Lemma need_iff {A} k (f : data -> res A) (R : data -> A -> Prop) {H : reads f R} es x : need k f es = Ok x <-> given k R es x.
Proof. apply given_iff. intros v _. apply H. Qed.
Lemma take_iff {A} k (f : data -> res A) (R : data -> A -> Prop) {H : reads f R} {N : solid R} es o : take_opt k f es = Ok o <-> maybe k R es o.
Proof.
  unfold take_opt, maybe. rewrite bind_ok'. split.
  - intros (q & E & K). apply entry_iff in E. destruct q as [q|]; cbn in K; injection K as <-; [|now left].
    destruct E as (v & E & F). unfold opt in F. destruct v; try (injection F as <-; now right);
      (apply bind_ok in F as (a & F & G); injection G as <-; eexists; split; [exact E|now apply H]).
  - destruct o as [x|].
    + intros (v & E & F). exists (Some (Some x)). split; [|reflexivity]. apply entry_iff. exists v. split; [exact E|].
      assert (v <> DNull) by (intros ->; now apply N in F). apply H in F. unfold opt. destruct v; try congruence; now rewrite F.
    + intros [E|E].
      * exists None. split; [now apply entry_iff|reflexivity].
      * exists (Some None). split; [|reflexivity]. apply entry_iff. exists DNull. split; [exact E|reflexivity].
Qed.
Lemma mapM_iff {A} (f : data -> res A) (R : data -> A -> Prop) vs : (forall v x, In v vs -> (f v = Ok x <-> R v x)) ->
  forall l, mapM f vs = Ok l <-> Forall2 R vs l.
Proof.
  induction vs as [|v vs IH]; intros H l; cbn.
  - split; [intros E; injection E as <-; constructor|intros E; inversion E; reflexivity].
  - assert (IH' := IH (fun w x I => H w x (or_intror I))). clear IH. split.
    + intros E. apply bind_ok in E as (x & F & E). apply bind_ok in E as (r & G & E). injection E as <-.
      constructor; [now apply H; [left|]|now apply IH'].
    + intros E. inversion E as [|a x b r F G]; subst. apply H in F; [|now left]. apply IH' in G. now rewrite F, G.
Qed.
Lemma items_iff {A} (f : data -> res A) (R : data -> A -> Prop) v l : (forall vs w x, v = DSeq vs -> In w vs -> (f w = Ok x <-> R w x)) ->
  seq_of f v = Ok l <-> items R v l.
Proof.
  intros H. unfold seq_of, items. destruct v; split; try discriminate; try (intros (vs & E & _); discriminate).
  - intros E. eexists. split; [reflexivity|]. revert E. apply mapM_iff. eauto.
  - intros (vs & E & F). injection E as ->. revert F. apply mapM_iff. eauto.
Qed.
Lemma list_iff {A} k (f : data -> res A) (R : data -> A -> Prop) {H : reads f R} es l : take_list k f es = Ok l <-> some_items k R es l.
Proof.
  unfold take_list, some_items. rewrite bind_ok'. split.
  - intros (q & E & K). apply entry_iff in E. destruct q as [q|]; cbn in K; injection K as <-; [|now right].
    left. destruct E as (v & E & F). exists v. split; [exact E|]. revert F. apply items_iff. intros. apply H.
  - intros [(v & E & F)|[E ->]].
    + exists (Some l). split; [|reflexivity]. apply entry_iff. exists v. split; [exact E|]. revert F. apply items_iff. intros. apply H.
    + exists None. split; [now apply entry_iff|reflexivity].
Qed.

(** ** Values *)
#[global] Instance str_reads : reads get_str text.
Proof. intros v x. unfold text. destruct v; cbn; split; congruence. Qed.
#[global] Instance bool_reads : reads get_bool flag.
Proof. intros v x. unfold flag. destruct v; cbn; split; congruence. Qed.
Lemma num_reads b : reads (get_num b) (amount b).
Proof.
  intros v x. unfold amount. destruct v; cbn; try (split; [discriminate|intros [? _]; discriminate]).
  destruct (N.ltb_spec n b); split; try discriminate.
  - intros E. injection E as <-. auto.
  - intros [E _]. congruence.
  - intros [E L]. injection E as ->. lia.
Qed.
#[global] Instance u32_reads : reads get_u32 (amount (2 ^ 32)). Proof. exact (num_reads pow32). Qed.
#[global] Instance u64_reads : reads get_u64 (amount (2 ^ 64)). Proof. exact (num_reads pow64). Qed.
Lemma variant_reads {A} (f : string -> option A) words : (forall s x, f s = Some x <-> In (s, x) words) -> reads (variant f) (word words).
Proof.
  intros W v x. unfold word. destruct v; cbn; try (split; [discriminate|intros (? & ? & _); discriminate]).
  split.
  - intros H. exists s. split; [reflexivity|]. apply W. destruct (f s); cbn in H; congruence.
  - intros (t & E & I). injection E as <-. apply W in I. now rewrite I.
Qed.
#[global] Instance access_reads : reads get_access (word access_words). Proof. apply variant_reads, access_iff. Qed.
#[global] Instance usage_reads : reads get_usage (word usage_words). Proof. apply variant_reads, usage_iff. Qed.
#[global] Instance protection_reads : reads get_protection (word protection_words). Proof. apply variant_reads, protection_iff. Qed.
#[global] Instance effect_reads : reads get_mwv (word effect_words). Proof. apply variant_reads, effect_iff. Qed.
#[global] Instance action_reads : reads get_read_action (word action_words). Proof. apply variant_reads, action_iff. Qed.
#[global] Instance endian_reads : reads get_endian (word endian_words). Proof. apply variant_reads, endian_iff. Qed.
#[global] Instance block_word_reads : reads get_ab_usage (word block_words). Proof. apply variant_reads, block_iff. Qed.
#[global] Instance type_reads : reads get_data_type (word type_names).
Proof.
  apply variant_reads. intros s x. split.
  - unfold data_type_of_serde. intros H. apply find_first_some in H as (_ & _ & _ & H & _). apply seqb_eq in H. subst s. destruct x; cbn; tauto.
  - cbn. intros H. repeat (destruct H as [H|H]; [injection H as <- <-; reflexivity|]). contradiction.
Qed.
#[global] Instance seq_reads {A} (f : data -> res A) R {H : reads f R} : reads (seq_of f) (items R).
Proof. intros v l. apply items_iff. intros. apply H. Qed.
#[global] Instance text_solid : solid text. Proof. discriminate. Qed.
#[global] Instance flag_solid : solid flag. Proof. discriminate. Qed.
#[global] Instance amount_solid b : solid (amount b). Proof. intros x [E _]. discriminate. Qed.
#[global] Instance word_solid {A} (w : list (string * A)) : solid (word w). Proof. intros x (s & E & _). discriminate. Qed.
#[global] Instance items_solid {A} (R : data -> A -> Prop) : solid (items R). Proof. intros x (s & E & _). discriminate. Qed.
#[global] Instance map_solid {A} (R : list (string * data) -> A -> Prop) : solid (in_map R). Proof. intros x (s & E & _). discriminate. Qed.
Lemma map_iff {A} (g : entries -> res A) (R : list (string * data) -> A -> Prop) v x :
  (forall es, v = DMap es -> (g es = Ok x <-> R es x)) -> struct g v = Ok x <-> in_map R v x.
Proof.
  intros H. unfold struct, in_map. destruct v; split; try discriminate; try (intros (? & E & _); discriminate).
  - intros E. eexists. split; [reflexivity|]. now apply H.
  - intros (es' & E & F). injection E as ->. now apply H.
Qed.
#[global] Instance fields_solid {A} ks (R : list (string * data) -> A -> Prop) : solid (in_fields ks R).
Proof. intros x [(s & E & _)|(s & E & _)]; discriminate. Qed.
Lemma fields_iff {A} ks (g : entries -> res A) (R : list (string * data) -> A -> Prop) v x :
  (forall es, g es = Ok x <-> R es x) -> struct_of ks g v = Ok x <-> in_fields ks R v x.
Proof.
  intros H. unfold struct_of, in_fields, in_map. destruct v; split; try discriminate; try (intros [(? & E & _)|(? & E & _)]; discriminate).
  - destruct (Nat.leb_spec (List.length l) (List.length ks)); [|discriminate]. intros E. right. exists l. rewrite <- H. auto.
  - intros [(? & E & _)|(l' & E & L & F)]; [discriminate|]. injection E as <-. apply Nat.leb_le in L. rewrite L. now apply H.
  - intros E. left. eexists. split; [reflexivity|]. now apply H.
  - intros [(es' & E & F)|(? & E & _)]; [|discriminate]. injection E as <-. now apply H.
Qed.
Ltac fw := repeat match goal with
  | H : need _ _ _ = Ok _ |- _ => eapply need_iff in H; [|typeclasses eauto]
  | H : take_opt _ _ _ = Ok _ |- _ => eapply take_iff in H; [|typeclasses eauto|typeclasses eauto]
  | H : take_list _ _ _ = Ok _ |- _ => eapply list_iff in H; [|typeclasses eauto]
  end.
Ltac stepk := apply bind_ok'; eexists; split.
Ltac bw := repeat (stepk; [first [eapply need_iff; [typeclasses eauto|]; eassumption|eapply take_iff; [typeclasses eauto|typeclasses eauto|]; eassumption
  |eapply list_iff; [typeclasses eauto|]; eassumption]|]).

(** ** Maps *)
Lemma props_said_iff es p : rp_get es = Ok p <-> props_said es p.
Proof.
  unfold rp_get. split.
  - intros H. binds H. fw. constructor; assumption.
  - intros [A B C D E]. bw. now destruct p.
Qed.
#[global] Instance value_reads : reads ev_get (in_fields value_fields value_said).
Proof.
  intros v e. apply fields_iff. intros es. cbv beta. split.
  - intros H. binds H. fw. constructor; assumption.
  - intros [A B C D]. bw. now destruct e.
Qed.
#[global] Instance values_reads : reads evs_get (in_fields values_fields values_said).
Proof.
  intros v e. apply fields_iff. intros es. cbv beta. split.
  - intros H. binds H. fw. constructor; assumption.
  - intros [A B C D]. bw. now destruct e.
Qed.
#[global] Instance constraint_reads : reads wc_get constraint_said.
Proof.
  intros v w. unfold wc_get. split.
  - destruct v as [| | | | |[|[k v] [|]]]; try discriminate.
    destruct (seqb k "writeAsRead") eqn:E1; [|destruct (seqb k "useEnumeratedValues") eqn:E2; [|destruct (seqb k "range") eqn:E3; [|discriminate]]];
      match goal with E : seqb k _ = true |- _ => apply seqb_eq in E; subst k end; intros H.
    + apply bind_ok in H as (b & B & H). injection H as <-. apply reads_iff in B. unfold flag in B. subst v. constructor.
    + apply bind_ok in H as (b & B & H). injection H as <-. apply reads_iff in B. unfold flag in B. subst v. constructor.
    + set (g := fun es => let* lo := need "minimum" get_u64 es in let* hi := need "maximum" get_u64 es in Ok (lo, hi)).
      assert (G : exists lo hi es, w = WcRange lo hi /\ g es = Ok (lo, hi) /\
        (v = DMap es \/ exists l, v = DSeq l /\ es = combine range_keys l /\ (List.length l <= List.length range_keys)%nat)).
      { cbn [seqb] in H. change (struct_of range_keys (fun es => let* lo := need "minimum" get_u64 es in
          let* hi := need "maximum" get_u64 es in Ok (WcRange lo hi)) v = Ok w) in H.
        destruct v; try discriminate; cbn [struct_of] in H.
        - destruct (Nat.leb_spec (List.length l) (List.length range_keys)); [|discriminate].
          apply bind_ok in H as (lo & L & H). apply bind_ok in H as (hi & I & H). injection H as <-.
          exists lo, hi, (combine range_keys l). conjs; [reflexivity| |eauto 8]. unfold g. now rewrite L, I.
        - apply bind_ok in H as (lo & L & H). apply bind_ok in H as (hi & I & H). injection H as <-.
          exists lo, hi, es. conjs; [reflexivity| |auto]. unfold g. now rewrite L, I. }
      destruct G as (lo & hi & es & -> & G & V). constructor. unfold g in G.
      assert (R : range_said es (lo, hi)).
      { apply bind_ok in G as (x & X & G). apply bind_ok in G as (y & Y & G). injection G as <- <-. fw. now constructor. }
      destruct V as [->|(l & -> & -> & V)]; [left; exists es; auto|right; exists l; auto].
  - intros [b|b|lo hi v' [(es & -> & [A B])|(vs & -> & L & [A B])]]; try reflexivity; cbn [fst snd] in A, B.
    + cbn. bw. reflexivity.
    + change (struct_of range_keys (fun es => let* lo := need "minimum" get_u64 es in
          let* hi := need "maximum" get_u64 es in Ok (WcRange lo hi)) (DSeq vs) = Ok (WcRange lo hi)).
      cbn [struct_of]. apply Nat.leb_le in L. change range_fields with range_keys in *. rewrite L. bw. reflexivity.
Qed.
#[global] Instance constraint_solid : solid constraint_said. Proof. intros x H. inversion H. Qed.
#[global] Instance array_index_reads : reads dai_get (in_fields array_index_fields array_index_said).
Proof.
  intros v d. apply fields_iff. intros es. cbv beta. split.
  - intros H. binds H. fw. constructor; assumption.
  - intros [A B]. bw. now destruct d.
Qed.
#[global] Instance indexes_reads : reads dim_index_get indexes_said.
Proof.
  intros v o. unfold dim_index_get. split.
  - destruct v; cbn; intros H; try discriminate.
    + injection H as <-. constructor.
    + apply bind_ok in H as (l & H & K). injection K as <-. constructor. apply parse_indexes_spec. destruct (parse_indexes s); cbn in H; congruence.
    + destruct (mapM get_str l) as [x| |] eqn:E; cbn in H; try discriminate. injection H as <-. constructor. revert E. apply mapM_iff. intros. apply str_reads.
  - intros [|vs l F|s l F]; [reflexivity| |].
    + cbn. apply (mapM_iff get_str text vs (fun v x _ => str_reads v x)) in F. rewrite F. reflexivity.
    + cbn. apply parse_indexes_spec in F. rewrite F. reflexivity.
Qed.
Lemma dim_said_iff es d : de_get es = Ok d <-> dim_said es d.
Proof.
  unfold de_get. split.
  - intros H. binds H. fw. constructor; assumption.
  - intros [A B C D E]. bw. now destruct d.
Qed.
Lemma array_said_iff {A} (g : entries -> res A) (R : list (string * data) -> A -> Prop) v x :
  (forall es i, v = DMap es -> (g es = Ok i <-> R es i)) -> ma_get g v = Ok x <-> array_said R v x.
Proof.
  intros H. unfold ma_get, struct. split.
  - destruct v as [| | | | |es]; try discriminate. assert (H' := H es). destruct (de_get es) as [d|e|p] eqn:E; [| |discriminate]; intros K;
      apply bind_ok in K as (i & F & K); injection K as <-; apply H' in F; auto.
    + apply as_many; [exact F|now apply dim_said_iff].
    + apply as_one; [exact F|]. intros d D. apply dim_said_iff in D. congruence.
  - intros K. inversion K as [es i F N|es i d F D]; subst.
    + apply H in F; [|reflexivity]. rewrite F. destruct (de_get es) as [d|e|p] eqn:E; [|reflexivity|].
      * apply dim_said_iff in E. destruct (N d E).
      * now destruct (still_de Release es False p E) as (_ & _ & []).
    + apply H in F; [|reflexivity]. apply dim_said_iff in D. now rewrite D, F.
Qed.

(** ** Bits *)
Lemma bits_untext m es b : (forall t, ~ as_text es t) ->
  match need "bitOffset" get_u32 es, need "bitWidth" get_u32 es with
    | Ok o, Ok w => Ok (br_from_offset_width o w)
    | _, _ =>
      match need "lsb" get_u32 es, need "msb" get_u32 es with
      | Ok l, Ok h => br_from_msb_lsb m h l
      | _, _ => Err EDeserialize
      end
    end = Ok b <-> bits_said m es b.
Proof.
  intros N.
  assert (S : forall o w, as_size es o w <-> need "bitOffset" get_u32 es = Ok o /\ need "bitWidth" get_u32 es = Ok w)
    by (intros o w; unfold as_size; rewrite !(need_iff _ get_u32 (amount (2 ^ 32))); reflexivity).
  assert (E : (forall o w, ~ as_size es o w) ->
    match need "lsb" get_u32 es, need "msb" get_u32 es with Ok l, Ok h => br_from_msb_lsb m h l | _, _ => Err EDeserialize end = Ok b
    <-> bits_said m es b).
  { intros Z. split.
    - destruct (need "lsb" get_u32 es) as [l| |] eqn:L; [|discriminate..]. destruct (need "msb" get_u32 es) as [h| |] eqn:H; [|discriminate..].
      intros K. fw. assert (Bl : l < 2 ^ 32) by now destruct L as (v & _ & _ & ?).
      assert (Bh : h < 2 ^ 32) by now destruct H as (v & _ & _ & ?).
      apply (C65_ends m h l Bh Bl) in K as (<- & K & Y & D). now apply bs_ends with h.
    - intros [t h b' A _ _ _ _|o w _ A|h b' _ _ L H Y K D]; [destruct (N _ A)|destruct (Z _ _ A)|].
      assert (Bl : br_offset b' < 2 ^ 32) by now destruct L as (v & _ & _ & ?).
      assert (Bh : h < 2 ^ 32) by now destruct H as (v & _ & _ & ?).
      apply (need_iff _ get_u32 (amount (2 ^ 32))) in L, H. rewrite L, H. apply (C65_ends m h _ Bh Bl). auto. }
  destruct (need "bitOffset" get_u32 es) as [o| |] eqn:O, (need "bitWidth" get_u32 es) as [w| |] eqn:W;
    try (apply E; intros o' w' K; apply S in K as [K1 K2]; congruence).
  assert (A : as_size es o w) by now apply S. split.
  - intros H. injection H as <-. now apply bs_size.
  - intros [t h b' A' _ _ _ _|o' w' _ A'|h b' _ Z _ _ _ _ _]; [destruct (N _ A')| |destruct (Z _ _ A)].
    apply S in A' as [A1 A2]. unfold br_from_offset_width. congruence.
Qed.
Lemma bits_said_iff m es b : br_get m es = Ok b <-> bits_said m es b.
Proof.
  unfold br_get.
  destruct (need "bitRange" get_str es) as [t|e|p] eqn:T.
  - assert (T' := proj1 (need_iff _ _ _ _ _) T). split.
    + intros H. apply bind_ok in H as (o & F & H). destruct o as [b'|]; cbn in H; [|discriminate]. injection H as ->.
      apply C65_text in F as (h & B & S & K & D). now apply bs_text with t h.
    + intros [t' h b' A B K S D|o w N _|h b' N _ _ _ _ _ _]; [|destruct (N t T')..].
      assert (t' = t) as ->. { destruct A as (v & A1 & A2), T' as (v' & B1 & B2). unfold text in *. congruence. }
      assert (F : br_from_bit_range m t = Ok (Some b')) by (apply C65_text; eauto 6). now rewrite F.
  - apply bits_untext. intros t A. apply (need_iff _ get_str text) in A. congruence.
  - apply bits_untext. intros t A. apply (need_iff _ get_str text) in A. congruence.
Qed.

(** ** Larger maps *)
Lemma field_said_iff m es f : field_get m es = Ok f <-> field_said m es f.
Proof.
  unfold field_get. split.
  - intros H. binds H. match goal with H : br_get _ _ = Ok _ |- _ => apply bits_said_iff in H end. fw. constructor; assumption.
  - intros [N D B A E W Ra Vs Df]. bw. stepk; [apply bits_said_iff; eassumption|]. bw. now destruct f.
Qed.
#[global] Instance array_solid {A} (R : list (string * data) -> A -> Prop) : solid (array_said R). Proof. intros x H. inversion H. Qed.
#[global] Instance field_reads m : reads (ma_get (field_get m)) (array_said (field_said m)).
Proof. intros v x. apply array_said_iff. intros. apply field_said_iff. Qed.
Lemma register_said_iff m es r : register_get m es = Ok r <-> register_said m es r.
Proof.
  unfold register_get. split.
  - intros H. binds H. match goal with H : rp_get _ = Ok _ |- _ => apply props_said_iff in H end. fw. constructor; assumption.
  - intros [N Dn D G Al O P Dt E W Ra Fs Df]. bw. stepk; [apply props_said_iff; eassumption|]. bw. now destruct r.
Qed.
Lemma cluster_said_iff get (R : data -> register_cluster -> Prop) es c :
  (forall vs v x, In ("children"%string, DSeq vs) es -> In v vs -> (get v = Ok x <-> R v x)) ->
  cluster_get get es = Ok c <-> cluster_said R es c.
Proof.
  intros V. assert (C : forall l, need "children" (seq_of get) es = Ok l <-> given "children" (items R) es l).
  { intros l. apply given_iff. intros v I. apply items_iff. intros vs w x -> J. now apply V with vs. }
  unfold cluster_get. split.
  - intros H. binds H. match goal with H : rp_get _ = Ok _ |- _ => apply props_said_iff in H end.
    match goal with H : need "children" _ _ = Ok _ |- _ => apply C in H end. fw. constructor; assumption.
  - intros [N D Al H O P Ch Df]. bw. stepk; [apply props_said_iff; eassumption|]. stepk; [apply C; eassumption|]. bw. now destruct c.
Qed.
#[global] Instance block_reads m : reads (rc_get m) (block_said m).
Proof.
  intros v. induction v as [v IH] using rc_data_ind. intros rc. rewrite rc_get_eq. unfold rc_tagged. split.
  - destruct v as [| | | | |[|[k v] [|]]]; try discriminate.
    destruct (seqb k "register") eqn:E1; [|destruct (seqb k "cluster") eqn:E2; [|discriminate]];
      match goal with E : seqb k _ = true |- _ => apply seqb_eq in E; subst k end; intros H; apply bind_ok in H as (r & F & H); injection H as <-.
    + constructor. revert F. apply array_said_iff. intros. apply register_said_iff.
    + constructor. revert F. apply array_said_iff. intros es i ->. apply cluster_said_iff. intros vs w x I J. now apply (IH "cluster"%string es "children"%string vs w).
  - intros K. inversion K as [w r F|w c F]; subst.
    + cbn. assert (G : ma_get (register_get m) w = Ok r) by (revert F; apply array_said_iff; intros; apply register_said_iff). now rewrite G.
    + cbn. assert (G : ma_get (cluster_get (rc_get m)) w = Ok c); [|now rewrite G].
      revert F. apply array_said_iff. intros es i ->. apply cluster_said_iff. intros vs u x I J. now apply (IH "cluster"%string es "children"%string vs u).
Qed.
#[global] Instance address_block_reads : reads ab_get (in_fields address_block_fields address_block_said).
Proof.
  intros v a. apply fields_iff. intros es. cbv beta. split.
  - intros H. binds H. fw. constructor; assumption.
  - intros [A B C D]. bw. now destruct a.
Qed.
#[global] Instance interrupt_reads : reads it_get (in_fields interrupt_fields interrupt_said).
Proof.
  intros v a. apply fields_iff. intros es. cbv beta. split.
  - intros H. binds H. fw. constructor; assumption.
  - intros [A B C]. bw. now destruct a.
Qed.
Lemma peripheral_said_iff m es p : peripheral_get m es = Ok p <-> peripheral_said m es p.
Proof.
  unfold peripheral_get. split.
  - intros H. binds H. match goal with H : rp_get _ = Ok _ |- _ => apply props_said_iff in H end. fw. constructor; assumption.
  - intros [N Dn V D Al G Pr Ap H B P Bl It Rs Df]. bw. stepk; [apply props_said_iff; eassumption|]. bw. now destruct p.
Qed.
#[global] Instance peripheral_reads m : reads (ma_get (peripheral_get m)) (array_said (peripheral_said m)).
Proof. intros v x. apply array_said_iff. intros. apply peripheral_said_iff. Qed.
#[global] Instance cpu_reads : reads cpu_get (in_fields cpu_fields cpu_said).
Proof.
  intros v c. apply fields_iff. intros es. cbv beta. split.
  - intros H. binds H. fw. constructor; assumption.
  - intros [A B C D E F G H I J K L M N O P]. bw. now destruct c.
Qed.
#[global] Instance device_reads m : reads (device_get m) (in_map (device_said m)).
Proof.
  intros v d. apply map_iff. intros es _. cbv beta. split.
  - intros H. binds H. match goal with H : rp_get _ = Ok _ |- _ => apply props_said_iff in H end. fw.
    constructor; try assumption. repeat split.
  - intros [A B C D E F G H I J K L M N U]. bw. stepk; [apply props_said_iff; eassumption|]. bw.
    destruct U as (U1 & U2 & U3). destruct d; cbn in *. now subst.
Qed.
