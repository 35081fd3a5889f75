(** C50, C62-C64: serde failures, ranges and order. *)
From Coq Require Import Permutation.
From Verif Require Import Base BaseFacts Num NumProofs EnumProofs TreeFacts Types Arrays SpecNum SpecArray ArrayProofs IndexProofs BitProofs
  SpecBuild SpecValidate SpecParse SpecRound PropBits Serde SpecSerde SpecData SerdeProofs.
Import ListNotations.

(** ** Nothing lost *)
Lemma map_same {A} (f : A -> A) l : (forall a, In a l -> f a = a) -> map f l = l.
Proof. induction l as [|a l IH]; intros H; [reflexivity|]. cbn [map]. rewrite H by now left. f_equal. apply IH. intros; apply H; now right. Qed.
Lemma b_any_id {A} (f : A -> A) x : f (info x) = info x -> (forall a d, x = Array a d -> de_index d <> None) -> b_any f x = x.
Proof.
  destruct x as [a|a d]; cbn [info b_any]; intros E L; [|specialize (L a d eq_refl); destruct (de_index d); [|now destruct L]]; now rewrite E.
Qed.
Lemma b_register_id r : (forall n a, array_in_register r n a -> de_index a <> None) -> b_register r = r.
Proof.
  intros H. unfold b_register. replace (option_map (map b_field) (r_fields r)) with (r_fields r); [now destruct r|].
  destruct (r_fields r) as [fs|] eqn:E; [|reflexivity]. cbn [option_map]. f_equal. symmetry. apply map_same. intros f I.
  apply b_any_id; [reflexivity|]. intros a d ->. eapply H. econstructor; eauto.
Qed.
Lemma b_cluster_id (i : cluster_info) l : l = c_children i -> b_cluster l i = i.
Proof. intros ->. now destruct i. Qed.
Lemma b_rc_id rc : (forall n a, array_in_rc rc n a -> de_index a <> None) -> b_rc rc = rc.
Proof.
  induction rc as [r|c IH] using rc_tree_ind; intros L; cbn [b_rc]; f_equal; apply b_any_id.
  - apply b_register_id. intros n a I. eapply L. apply ac_in_register. exact I.
  - intros a d ->. eapply L. apply ac_register.
  - apply b_cluster_id. apply map_same. rewrite Forall_forall in IH. intros rc I. apply IH; [exact I|].
    intros n a J. eapply L. eapply ac_child; eauto.
  - intros a d ->. eapply L. apply ac_cluster.
Qed.
Lemma b_device_id d : device_listed d -> usual_header d -> b_device d = d.
Proof.
  intros L (H1 & H2 & H3). unfold b_device. rewrite <- H1, <- H2, <- H3.
  rewrite map_same; [now destruct d|]. intros p I. apply b_any_id.
  - unfold b_peripheral. replace (option_map (map b_rc) (p_registers (info p))) with (p_registers (info p)); [now destruct (info p)|].
    destruct (p_registers (info p)) as [rs|] eqn:E; [|reflexivity]. cbn [option_map]. f_equal. symmetry. apply map_same.
    intros rc J. apply b_rc_id. intros n a K. eapply L. eapply ad_child; [exact I|]. econstructor; eauto.
  - intros a e ->. eapply L. eapply ad_peripheral; exact I.
Qed.

(** ** Bit range texts *)
Lemma brackets_bracketed t h l : brackets t = Ok (h, l) <-> bracketed t h l.
Proof. exact (brackets_ok t h l). Qed.
Lemma bit_width_span m h l w : h < 2 ^ 32 -> l < 2 ^ 32 ->
  (bit_width m h l = Ok w <-> span h l w /\ (m = Debug -> ~ bad_span h l)).
Proof.
  intros Hh Hl. unfold bit_width, sub32, add32, sub_w, add_w, span, bad_span, pow32.
  destruct (N.leb_spec l h) as [L|L]; cbn [bind].
  - destruct (N.ltb_spec (h - l + 1) 4294967296) as [S|S].
    + split; [intros X; injection X as <-; split; [lia|intros _; lia]|intros [X _]; f_equal; lia].
    + destruct m.
      * split; [discriminate|intros [_ X]; exfalso; apply (X eq_refl); lia].
      * assert (E : h - l + 1 = 4294967296) by lia. rewrite E. change (4294967296 mod 4294967296) with 0.
        split; [intros X; injection X as <-; split; [lia|discriminate]|intros [X _]; f_equal; lia].
  - destruct m; cbn [bind].
    + split; [discriminate|intros [_ X]; exfalso; apply (X eq_refl); lia].
    + rewrite (N.mod_small (h + 4294967296 - l)) by lia.
      destruct (N.ltb_spec (h + 4294967296 - l + 1) 4294967296) as [S|S].
      * split; [intros X; injection X as <-; split; [lia|discriminate]|intros [X _]; f_equal; lia].
      * assert (E : h + 4294967296 - l + 1 = 4294967296) by lia. rewrite E. change (4294967296 mod 4294967296) with 0.
        split; [intros X; injection X as <-; split; [lia|discriminate]|intros [X _]; f_equal; lia].
Qed.

(** ** When writing panics *)
Definition outcome {X} (r : res X) (bad : Prop) : Prop := ((exists x, r = Ok x) /\ ~ bad) \/ (r = Panic Overflow /\ bad).
Lemma out_iff {X} (r : res X) P Q : outcome r P -> (P <-> Q) -> outcome r Q.
Proof. intros [[H N]|[H N]] E; [left|right]; split; tauto. Qed.
Lemma out_bind {X Y} (r : res X) (k : X -> res Y) P : outcome r P -> (forall x, exists y, k x = Ok y) -> outcome (bind r k) P.
Proof. intros [[[x ->] N]|[-> N]] H; [left; split; [apply H|exact N]|right; now split]. Qed.
Lemma out_map {X Y} (f : X -> res Y) (bad : X -> Prop) l : Forall (fun x => outcome (f x) (bad x)) l ->
  outcome (mapM f l) (exists x, In x l /\ bad x).
Proof.
  induction 1 as [|x l H _ IH]; cbn [mapM].
  - left. split; [eauto|]. intros (x & [] & _).
  - destruct H as [[[y ->] N]|[-> N]]; cbn [bind].
    + destruct IH as [[[ys ->] M]|[-> M]]; cbn [bind].
      * left. split; [eauto|]. intros (z & [<-|I] & B); [auto|]. apply M. eauto.
      * right. split; [reflexivity|]. destruct M as (z & I & B). exists z. split; [now right|exact B].
    + right. split; [reflexivity|]. exists x. split; [now left|exact N].
Qed.
Lemma out_ma {A} (put : A -> res entries) bad x : outcome (put (info x)) bad -> outcome (ma_put put x) bad.
Proof. destruct x; cbn [info ma_put]; intros H; (apply out_bind; [exact H|eauto]). Qed.
Section PutPanics.
  Variable m : mode.
  Definition bad_field (f : field_info) : Prop := m = Debug /\ no_msb (f_bit_range f).
  Definition bad_elements (R : element -> Prop) : Prop := exists f, R (EField f) /\ bad_field f.
  Lemma br_msb_outcome b : outcome (br_msb m b) (m = Debug /\ (2 ^ 32 <= br_offset b + br_width b \/ br_offset b + br_width b = 0)).
  Proof.
    unfold br_msb, add32, sub32, add_w, sub_w. destruct (N.ltb_spec (br_offset b + br_width b) pow32) as [L|L]; cbn [bind].
    - destruct (N.leb_spec 1 (br_offset b + br_width b)) as [G|G].
      + left. split; [eauto|]. unfold pow32 in L. lia.
      + destruct m; [right; split; [reflexivity|split; [reflexivity|lia]]|left; split; [eauto|intros [? _]; discriminate]].
    - destruct m; cbn [bind].
      + right. unfold pow32 in L. split; [reflexivity|split; [reflexivity|lia]].
      + left. split; [destruct (_ <=? _); eauto|intros [? _]; discriminate].
  Qed.
  Lemma br_put_outcome b : outcome (br_put m b) (m = Debug /\ no_msb b).
  Proof.
    unfold br_put, no_msb. destruct (br_type b).
    - unfold br_text. rewrite bind_assoc. eapply out_iff; [apply out_bind; [apply br_msb_outcome|cbn [bind]; eauto]|].
      intuition discriminate.
    - left. split; [eauto|]. intuition congruence.
    - eapply out_iff; [apply out_bind; [apply br_msb_outcome|eauto]|]. intuition discriminate.
  Qed.
  Lemma field_put_outcome f : outcome (field_put m f) (bad_field f).
  Proof. unfold field_put. apply out_bind; [apply br_put_outcome|eauto]. Qed.
  Lemma in_values_field es f : ~ in_values es (EField f).
  Proof. intros H. inversion H. Qed.
  Lemma in_field_field g f : in_field g (EField f) <-> f = g.
  Proof.
    split; [|intros ->; apply if_self]. intros H. inversion H as [|es x I J]; [reflexivity|]. now apply in_values_field in J.
  Qed.
  Lemma register_put_outcome r : outcome (register_put m r) (bad_elements (in_register r)).
  Proof.
    unfold register_put. apply out_bind; [|eauto]. unfold bad_elements. destruct (r_fields r) as [fs|] eqn:E; cbn [mapM_opt].
    - eapply out_iff; [apply out_bind; [apply out_map with (bad := fun x => bad_field (info x))|eauto]|].
      + apply Forall_forall. intros x _. apply out_ma, field_put_outcome.
      + split.
        * intros (x & I & B). exists (info x). split; [|exact B]. eapply ir_field; [exact E|exact I|]. now apply in_field_field.
        * intros (f & I & B). inversion I as [| |fs' x y E' J K]; subst. rewrite E in E'. injection E' as <-.
          apply in_field_field in K as ->. eauto.
    - left. split; [eauto|]. intros (f & I & B). inversion I as [| |fs' x y E' J K]. congruence.
  Qed.
  Lemma rc_put_outcome rc : outcome (rc_put m rc) (bad_elements (in_rc rc)).
  Proof.
    induction rc as [r|c IH] using rc_tree_ind; cbn [rc_put]; (apply out_bind; [|eauto]).
    - eapply out_iff; [apply out_ma, register_put_outcome|]. unfold bad_elements. split; intros (f & I & B); exists f; split; auto.
      + now constructor.
      + now inversion I.
    - apply out_ma. unfold cluster_put. apply out_bind; [|eauto]. eapply out_iff; [apply out_map; exact IH|].
      unfold bad_elements. split.
      + intros (x & I & f & J & B). exists f. split; [|exact B]. eapply ic_child; eauto.
      + intros (f & I & B). inversion I as [| | |c' x y J K E]; subst. eauto.
  Qed.
  Lemma peripheral_put_outcome p : outcome (peripheral_put m p) (bad_elements (in_peripheral p)).
  Proof.
    unfold peripheral_put. apply out_bind; [|eauto]. unfold bad_elements. destruct (p_registers p) as [rs|] eqn:E; cbn [mapM_opt].
    - eapply out_iff; [apply out_bind; [apply out_map with (bad := fun x => bad_elements (in_rc x))|eauto]|].
      + apply Forall_forall. intros x _. apply rc_put_outcome.
      + split.
        * intros (x & I & f & J & B). exists f. split; [|exact B]. eapply ip_child; eauto.
        * intros (f & I & B). inversion I as [| |rs' x y E' J K]; subst. rewrite E in E'. injection E' as <-. exists x. split; [exact J|]. now exists f.
    - left. split; [eauto|]. intros (f & I & B). inversion I as [| |fs' x y E' J K]. congruence.
  Qed.
  Lemma device_put_outcome d : outcome (device_put m d) (bad_elements (in_device d)).
  Proof.
    unfold device_put. apply out_bind; [|eauto]. eapply out_iff; [apply out_map with (bad := fun x => bad_elements (in_peripheral (info x)))|].
    - apply Forall_forall. intros x _. apply out_ma, peripheral_put_outcome.
    - unfold bad_elements. split.
      + intros (x & I & f & J & B). exists f. split; [|exact B]. eapply id_peripheral; eauto.
      + intros (f & I & B). inversion I as [| |p x J K]; subst. exists p. split; [exact J|]. now exists f.
  Qed.
End PutPanics.

(** ** Induction over forms *)
Section DataInd.
  Variable P : data -> Prop.
  Hypothesis Hnull : P DNull.
  Hypothesis Hbool : forall b, P (DBool b).
  Hypothesis Hnum : forall n, P (DNum n).
  Hypothesis Hstr : forall s, P (DStr s).
  Hypothesis Hseq : forall l, Forall P l -> P (DSeq l).
  Hypothesis Hmap : forall es, Forall (fun e => P (snd e)) es -> P (DMap es).
  Fixpoint data_tree_ind (v : data) : P v :=
    match v with
    | DNull => Hnull
    | DBool b => Hbool b
    | DNum n => Hnum n
    | DStr s => Hstr s
    | DSeq l => Hseq l ((fix go (l : list data) : Forall P l :=
          match l with [] => Forall_nil P | x :: l' => Forall_cons x (data_tree_ind x) (go l') end) l)
    | DMap es => Hmap es ((fix go (es : list (string * data)) : Forall (fun e => P (snd e)) es :=
          match es with
          | [] => Forall_nil _
          | (k, x) :: es' => Forall_cons (k, x) (data_tree_ind x) (go es')
          end) es)
    end.
End DataInd.

(** The children of a cluster are two maps and a sequence further in. *)
Lemma rc_data_ind (Q : data -> Prop) :
  (forall v, (forall k es k' l x, v = DMap [(k, DMap es)] -> In (k', DSeq l) es -> In x l -> Q x) -> Q v) -> forall v, Q v.
Proof.
  intros H v.
  cut (Q v /\ (forall l x, v = DSeq l -> In x l -> Q x) /\
       (forall es k l x, v = DMap es -> In (k, DSeq l) es -> In x l -> Q x)); [tauto|].
  induction v as [| | | |l IH|es IH] using data_tree_ind;
    try (split; [apply H; intros; discriminate|split; intros; discriminate]).
  - rewrite Forall_forall in IH. split; [apply H; intros; discriminate|]. split; [|intros; discriminate].
    intros l' x E I. injection E as <-. now apply IH.
  - rewrite Forall_forall in IH. split; [|split; [intros; discriminate|]].
    + apply H. intros k es' k' l x E I J. injection E as ->. destruct (IH _ (or_introl eq_refl)) as (_ & _ & X). eapply X; eauto. reflexivity.
    + intros es' k l x E I J. injection E as <-. destruct (IH _ I) as (_ & X & _). eapply X; [reflexivity|exact J].
Qed.

(** ** Reading: what panics *)
Section Noise.
  Variable m : mode.
  Definition noisy {X} (r : res X) (cause : Prop) : Prop := forall p, r = Panic p -> m = Debug /\ p = Overflow /\ cause.
  Lemma no_ok {X} (a : X) C : noisy (Ok a) C. Proof. discriminate. Qed.
  Lemma no_err {X} e C : noisy (@Err X e) C. Proof. discriminate. Qed.
  Lemma no_bind {X Y} (r : res X) (k : X -> res Y) C : noisy r C -> (forall x, noisy (k x) C) -> noisy (bind r k) C.
  Proof. intros H K p. destruct r; cbn [bind]; [apply K|discriminate|]. intros E. injection E as ->. now apply H. Qed.
  Lemma no_weak {X} (r : res X) (C D : Prop) : noisy r C -> (C -> D) -> noisy r D.
  Proof. intros H K p E. destruct (H p E) as (? & ? & ?). auto. Qed.
  Lemma no_ok_or {X} (o : option X) e C : noisy (ok_or o e) C.
  Proof. destruct o; discriminate. Qed.
  Lemma no_map {X Y} (f : X -> res Y) l C : (forall x, In x l -> noisy (f x) C) -> noisy (mapM f l) C.
  Proof.
    induction l as [|x l IH]; intros H; cbn [mapM]; [discriminate|].
    apply no_bind; [apply H; now left|]. intros y. apply no_bind; [apply IH; intros; apply H; now right|]. intros ys. discriminate.
  Qed.
  Lemma no_entry_k {A} k (f : data -> res A) es C : (forall v, In (k, v) es -> noisy (f v) C) -> noisy (entry k f es) C.
  Proof.
    induction es as [|[k' v] es IH]; intros H; cbn [entry]; [discriminate|]. destruct (seqb k' k) eqn:E.
    - apply seqb_eq in E as ->. apply no_bind; [apply H; now left|]. intros a. destruct (has_key k es); discriminate.
    - apply IH. intros w I. apply H. now right.
  Qed.
  Lemma no_need {A} k (f : data -> res A) es C : (forall v, In (k, v) es -> noisy (f v) C) -> noisy (need k f es) C.
  Proof. intros H. unfold need. apply no_bind; [now apply no_entry_k|]. intros. apply no_ok_or. Qed.
  Lemma no_opt {A} (f : data -> res A) v C : noisy (f v) C -> noisy (opt f v) C.
  Proof. intros H. destruct v; [discriminate|..]; (apply no_bind; [exact H|discriminate]). Qed.
  Lemma no_take {A} k (f : data -> res A) es C : (forall v, In (k, v) es -> noisy (f v) C) -> noisy (take_opt k f es) C.
  Proof. intros H. unfold take_opt. apply no_bind; [apply no_entry_k; intros v I; apply no_opt; auto|discriminate]. Qed.
  Lemma no_seq {A} (f : data -> res A) v C : (forall l x, v = DSeq l -> In x l -> noisy (f x) C) -> noisy (seq_of f v) C.
  Proof. intros H. destruct v; try discriminate. cbn [seq_of]. apply no_map. intros x I. eauto. Qed.
  Lemma no_take_list {A} k (f : data -> res A) es C : (forall l x, In (k, DSeq l) es -> In x l -> noisy (f x) C) -> noisy (take_list k f es) C.
  Proof.
    intros H. unfold take_list. apply no_bind; [apply no_entry_k; intros v I; apply no_seq; intros l x -> J; eauto|discriminate].
  Qed.
  Lemma no_struct {A} (f : entries -> res A) v C : (forall es, v = DMap es -> noisy (f es) C) -> noisy (struct f v) C.
  Proof. intros H. destruct v; try discriminate. now apply H. Qed.
  Lemma no_struct_of {A} ks (f : entries -> res A) v C : (forall es, noisy (f es) C) -> noisy (struct_of ks f v) C.
  Proof. intros H. destruct v; try discriminate; [|apply H]. cbn [struct_of]. destruct (Nat.leb _ _); [apply H|discriminate]. Qed.
  (** Readers that never panic *)
  Definition still {A} (f : data -> res A) : Prop := forall v C, noisy (f v) C.
  Lemma still_str : still get_str. Proof. intros [] C; discriminate. Qed.
  Lemma still_bool : still get_bool. Proof. intros [] C; discriminate. Qed.
  Lemma still_num b : still (get_num b). Proof. intros [] C; try discriminate. cbn. destruct (_ <? _); discriminate. Qed.
  Lemma still_variant {A} (p : string -> option A) : still (variant p).
  Proof. intros [] C; try discriminate. apply no_ok_or. Qed.
  Ltac calm := repeat first
    [ match goal with H : still ?f |- noisy (?f _) _ => apply H end
    | apply no_ok | apply no_err | apply no_ok_or
    | match goal with |- noisy (bind _ _) _ => apply no_bind; [|intros ?] end
    | apply no_need; intros ? _ | apply no_take; intros ? _ | apply no_take_list; intros ? ? _ _
    | apply no_seq; intros ? ? _ _ | apply no_struct; intros ? _ | apply no_struct_of; intros ?
    | apply still_str | apply still_bool | apply still_num | apply still_variant ].
  Lemma still_ev : still ev_get. Proof. intros v C. unfold ev_get. calm. Qed.
  Lemma still_evs : still evs_get. Proof. intros v C. pose proof still_ev. unfold evs_get. calm. Qed.
  Lemma still_wc : still wc_get.
  Proof.
    intros v C. unfold wc_get. destruct v as [| | | | |[|[k v] [|]]]; try apply no_err.
    destruct (seqb k _); [calm|]. destruct (seqb k _); [calm|]. destruct (seqb k _); calm.
  Qed.
  Lemma still_dai : still dai_get. Proof. intros v C. pose proof still_ev. unfold dai_get. calm. Qed.
  Lemma still_index : still dim_index_get.
  Proof.
    intros v C. unfold dim_index_get. apply no_opt. destruct (seq_of get_str v) eqn:E; calm.
  Qed.
  Lemma still_rp es C : noisy (rp_get es) C. Proof. unfold rp_get. calm. Qed.
  Lemma still_de es C : noisy (de_get es) C.
  Proof. pose proof still_index. pose proof still_dai. unfold de_get. calm. Qed.
  Lemma still_ab : still ab_get. Proof. intros v C. unfold ab_get. calm. Qed.
  Lemma still_it : still it_get. Proof. intros v C. unfold it_get. calm. Qed.
  Lemma still_cpu : still cpu_get. Proof. intros v C. unfold cpu_get. calm. Qed.

  Lemma entry_in {A} k (f : data -> res A) es a : entry k f es = Ok (Some a) -> exists v, In (k, v) es /\ f v = Ok a.
  Proof.
    induction es as [|[k' v] es IH]; cbn [entry]; [discriminate|]. destruct (seqb k' k) eqn:E.
    - apply seqb_eq in E as ->. intros H. apply bind_ok in H as (b & F & H). destruct (has_key k es); [discriminate|].
      injection H as <-. exists v. split; [now left|exact F].
    - intros H. destruct (IH H) as (w & I & F). exists w. split; [now right|exact F].
  Qed.
  Lemma need_in {A} k (f : data -> res A) es a : need k f es = Ok a -> exists v, In (k, v) es /\ f v = Ok a.
  Proof.
    unfold need. intros H. apply bind_ok in H as (o & E & H). destruct o; [|discriminate]. injection H as ->. now apply entry_in.
  Qed.
  Lemma get_str_ok v s : get_str v = Ok s -> v = DStr s. Proof. destruct v; try discriminate. cbn. congruence. Qed.
  Lemma get_num_ok b v n : get_num b v = Ok n -> v = DNum n /\ n < b.
  Proof. destruct v; try discriminate. cbn. destruct (N.ltb_spec n0 b); [|discriminate]. intros E. injection E as ->. auto. Qed.
  Lemma bit_width_noise h l : h < 2 ^ 32 -> l < 2 ^ 32 -> noisy (bit_width m h l) (bad_span h l).
  Proof.
    intros Hh Hl p. unfold bit_width, sub32, add32, sub_w, add_w, pow32, bad_span.
    destruct (N.leb_spec l h) as [L|L]; cbn [bind].
    - destruct (N.ltb_spec (h - l + 1) 4294967296); [discriminate|]. destruct m; [|discriminate].
      intros E. injection E as <-. conjs; [reflexivity|reflexivity|lia].
    - destruct m; cbn [bind].
      + intros E. injection E as <-. conjs; [reflexivity|reflexivity|lia].
      + destruct (_ <? _); discriminate.
  Qed.
  Lemma br_get_noise es : noisy (br_get m es) (bad_entries es).
  Proof.
    unfold br_get. destruct (need "bitRange" get_str es) as [t|e|p] eqn:E.
    - apply no_bind; [|intros; apply no_ok_or]. apply need_in in E as (v & I & E). apply get_str_ok in E as ->.
      rewrite from_brackets. destruct (brackets t) as [[h l]|e|p] eqn:B; try apply no_ok.
      apply no_bind; [|intros; apply no_ok]. apply brackets_bracketed in B. pose proof B as (?&?&?&?&?&?&?&?&Hh&Hl).
      eapply no_weak; [apply bit_width_noise; assumption|]. intros S. exists h, l. split; [exact S|left]. eauto.
    - destruct (need "bitOffset" get_u32 es), (need "bitWidth" get_u32 es); try apply no_ok;
      (destruct (need "lsb" get_u32 es) as [l| |] eqn:L; try apply no_err; destruct (need "msb" get_u32 es) as [h| |] eqn:H; try apply no_err;
       apply need_in in L as (? & IL & L); apply get_num_ok in L as [-> L]; apply need_in in H as (? & IH & H); apply get_num_ok in H as [-> H];
       unfold br_from_msb_lsb; rewrite <- bind_assoc; (apply no_bind; [|intros; apply no_ok]);
       (eapply no_weak; [apply (bit_width_noise h l); assumption|]); intros S; exists h, l; split; [exact S|right; auto]).
    - destruct (need "bitOffset" get_u32 es), (need "bitWidth" get_u32 es); try apply no_ok;
      (destruct (need "lsb" get_u32 es) as [l| |] eqn:L; try apply no_err; destruct (need "msb" get_u32 es) as [h| |] eqn:H; try apply no_err;
       apply need_in in L as (? & IL & L); apply get_num_ok in L as [-> L]; apply need_in in H as (? & IH & H); apply get_num_ok in H as [-> H];
       unfold br_from_msb_lsb; rewrite <- bind_assoc; (apply no_bind; [|intros; apply no_ok]);
       (eapply no_weak; [apply (bit_width_noise h l); assumption|]); intros S; exists h, l; split; [exact S|right; auto]).
  Qed.
  (** Something inside is to blame. *)
  Definition loud (v : data) : Prop := exists es, inside es v /\ bad_entries es.
  Definition loud_in (es : entries) : Prop := loud (DMap es).
  Lemma loud_entry k v es : In (k, v) es -> loud v -> loud_in es.
  Proof. intros I (es' & J & B). exists es'. split; [eapply in_entry; eauto|exact B]. Qed.
  Lemma loud_item k v l es : In (k, DSeq l) es -> In v l -> loud v -> loud_in es.
  Proof. intros I J L. eapply loud_entry; [exact I|]. destruct L as (es' & K & B). exists es'. split; [eapply in_item; eauto|exact B]. Qed.
  Lemma ma_noise {A} (get : entries -> res A) v : (forall es, v = DMap es -> noisy (get es) (loud v)) -> noisy (ma_get get v) (loud v).
  Proof.
    intros H. unfold ma_get. apply no_struct. intros es E. destruct (de_get es) eqn:D.
    - apply no_bind; [auto|intros; apply no_ok].
    - apply no_bind; [auto|intros; apply no_ok].
    - intros q F. injection F as ->. exact (still_de es _ q D).
  Qed.
  Ltac soft := pose proof still_evs; pose proof still_wc; pose proof still_ab; pose proof still_it; pose proof still_cpu;
    repeat first
    [ apply no_ok | apply no_err
    | match goal with |- noisy (bind _ _) _ => apply no_bind; [|intros ?] end
    | apply no_need; intros ? _; solve [calm] | apply no_take; intros ? _; solve [calm]
    | apply no_take_list; intros ? ? _ _; solve [calm] | apply still_rp ].
  Lemma field_noise es : noisy (field_get m es) (loud_in es).
  Proof.
    unfold field_get. soft. eapply no_weak; [apply br_get_noise|]. intros B. exists es. split; [apply in_self|exact B].
  Qed.
  Lemma register_noise es : noisy (register_get m es) (loud_in es).
  Proof.
    unfold register_get. soft. apply no_take. intros w I. apply no_seq. intros l y -> J.
    eapply no_weak; [apply ma_noise; intros es' ->; apply field_noise|]. intros L. eapply loud_item; eauto.
  Qed.
  Lemma rc_noise v : noisy (rc_get m v) (loud v).
  Proof.
    induction v as [v IH] using rc_data_ind. destruct v as [| | | | |[|[k v] [|]]]; try apply no_err. cbn [rc_get].
    assert (U : forall {X} (r : res X), noisy r (loud v) -> noisy r (loud (DMap [(k, v)]))).
    { intros X r H. eapply no_weak; [exact H|]. intros L. eapply loud_entry; [now left|exact L]. }
    destruct (seqb k "register").
    - apply no_bind; [|intros; apply no_ok]. apply U, ma_noise. intros es ->. apply register_noise.
    - destruct (seqb k "cluster"); [|apply no_err]. apply no_bind; [|intros; apply no_ok]. apply U, ma_noise. intros es ->.
      unfold cluster_get. soft. apply no_need. intros w I. apply no_seq. intros l y -> J.
      eapply no_weak; [eapply IH; eauto; reflexivity|]. intros L. eapply loud_item; eauto.
  Qed.
  Lemma peripheral_noise es : noisy (peripheral_get m es) (loud_in es).
  Proof.
    unfold peripheral_get. soft. apply no_take. intros w I. apply no_seq. intros l y -> J.
    eapply no_weak; [apply rc_noise|]. intros L. eapply loud_item; eauto.
  Qed.
  Lemma device_noise v : noisy (device_get m v) (loud v).
  Proof.
    unfold device_get. apply no_struct. intros es ->. soft. apply no_need. intros w I. apply no_seq. intros l y -> J.
    eapply no_weak; [apply ma_noise; intros es' ->; apply peripheral_noise|]. intros L. eapply loud_item; eauto.
  Qed.
End Noise.

(** ** The order of entries *)
Lemma has_key_in k es : has_key k es = true <-> In k (map fst es).
Proof.
  induction es as [|[k' v] es IH]; cbn [has_key map In fst]; [split; [discriminate|tauto]|].
  rewrite Bool.orb_true_iff, IH, seqb_eq. tauto.
Qed.
Lemma has_key_ext k es es' : (In k (map fst es) <-> In k (map fst es')) -> has_key k es = has_key k es'.
Proof. rewrite <- !has_key_in. destruct (has_key k es), (has_key k es'); intuition congruence. Qed.
Lemma entry_perm {A} k (f : data -> res A) es es' : Permutation es es' -> NoDup (map fst es) -> entry k f es = entry k f es'.
Proof.
  induction 1 as [|[k' v] es es' P IH|[k1 v1] [k2 v2] es|es mid es' P1 IH1 P2 IH2]; intros N.
  - reflexivity.
  - cbn [entry]. inversion N as [|? ? N1 N2]; subst. rewrite (has_key_ext k es es').
    + now rewrite IH.
    + split; apply Permutation_in; [|symmetry]; now apply Permutation_map.
  - cbn [entry]. inversion N as [|? ? N1 N2]; subst. cbn [map fst In] in N1. inversion N2 as [|? ? N3 N4]; subst.
    destruct (seqb k1 k) eqn:E1, (seqb k2 k) eqn:E2; try reflexivity.
    + apply seqb_eq in E1, E2. exfalso. apply N1. left. congruence.
    + cbn [has_key]. now rewrite E2.
    + cbn [has_key]. now rewrite E1.
  - rewrite IH1 by exact N. apply IH2. eapply Permutation_NoDup; [apply Permutation_map; exact P1|exact N].
Qed.
Lemma entry_same {A} k (f : data -> res A) es es' : same_data (DMap es) (DMap es') ->
  (forall v v', In (k, v) es -> same_data v v' -> f v = f v') -> entry k f es = entry k f es'.
Proof.
  intros S H. inversion S as [| | | | |es0 mid es0' N P F]; subst. rewrite (entry_perm k f es mid P N).
  assert (H' : forall v v', In (k, v) mid -> same_data v v' -> f v = f v').
  { intros v v' I. apply H. eapply Permutation_in; [symmetry; exact P|exact I]. }
  clear - F H'. induction F as [|[k1 v1] [k2 v2] mid es' [E D] F IH]; [reflexivity|]. cbn [fst snd] in E, D. subst k2.
  cbn [entry]. destruct (seqb k1 k) eqn:K.
  - apply seqb_eq in K as ->. rewrite (H' v1 v2) by (now left || exact D). rewrite (has_key_ext k mid es'); [reflexivity|].
    clear - F. induction F as [|[k1 v1] [k2 v2] mid es' [E D] F IH]; [reflexivity|]. cbn [map In fst] in *. now rewrite IH, E.
  - apply IH. intros v v' I. apply H'. now right.
Qed.
Definition alike {A} (f : data -> res A) : Prop := forall v v', same_data v v' -> f v = f v'.
Lemma bind_same {A B} (x y : res A) (k k' : A -> res B) : x = y -> (forall a, k a = k' a) -> bind x k = bind y k'.
Proof. intros -> H. now apply bind_ext. Qed.
Lemma need_same {A} k (f : data -> res A) es es' : same_data (DMap es) (DMap es') ->
  (forall v v', In (k, v) es -> same_data v v' -> f v = f v') -> need k f es = need k f es'.
Proof. intros S H. unfold need. now rewrite (entry_same k f es es'). Qed.
Lemma opt_same {A} (f : data -> res A) v v' : same_data v v' -> f v = f v' -> opt f v = opt f v'.
Proof. intros S H. unfold opt. destruct S; first [reflexivity | now rewrite H]. Qed.
Lemma take_same {A} k (f : data -> res A) es es' : same_data (DMap es) (DMap es') ->
  (forall v v', In (k, v) es -> same_data v v' -> f v = f v') -> take_opt k f es = take_opt k f es'.
Proof. intros S H. unfold take_opt. rewrite (entry_same k (opt f) es es'); [reflexivity|exact S|]. intros v v' I D. apply opt_same; auto. Qed.
Lemma seq_same {A} (f : data -> res A) v v' : same_data v v' ->
  (forall l x x', v = DSeq l -> In x l -> same_data x x' -> f x = f x') -> seq_of f v = seq_of f v'.
Proof.
  intros S H. destruct S as [| | | |l l' F|]; try reflexivity. cbn [seq_of]. specialize (H l). revert H.
  induction F as [|x x' l l' D F IH]; intros H; [reflexivity|]. cbn [mapM].
  rewrite (H x x') by (reflexivity || now left || exact D). destruct (f x'); [|reflexivity|reflexivity]. cbn [bind].
  rewrite IH; [reflexivity|]. intros y y' _ I. apply H; [reflexivity|now right].
Qed.
Lemma take_list_same {A} k (f : data -> res A) es es' : same_data (DMap es) (DMap es') ->
  (forall l x x', In (k, DSeq l) es -> In x l -> same_data x x' -> f x = f x') -> take_list k f es = take_list k f es'.
Proof.
  intros S H. unfold take_list. rewrite (entry_same k (seq_of f) es es'); [reflexivity|exact S|].
  intros v v' I D. apply seq_same; [exact D|]. intros l x x' -> J. eauto.
Qed.
Lemma struct_same {A} (f : entries -> res A) v v' : same_data v v' ->
  (forall es es', v = DMap es -> same_data (DMap es) (DMap es') -> f es = f es') -> struct f v = struct f v'.
Proof. intros S H. destruct S as [| | | | |es mid es' N P F] eqn:E; try reflexivity. cbn [struct]. apply H; [reflexivity|]. now econstructor; eauto. Qed.
Lemma same_combine ks l l' : NoDup ks -> Forall2 same_data l l' -> same_data (DMap (combine ks l)) (DMap (combine ks l')).
Proof.
  intros N F. apply (sd_map _ (combine ks l)); [|reflexivity|].
  - revert l l' F. induction N as [|k ks I N IH]; intros l l' F; [constructor|]. destruct F as [|x x' l l' D F]; [constructor|].
    cbn [combine map fst]. constructor; [|eauto]. intros J. apply I. apply in_map_iff in J as ([k' v] & <- & J). now apply in_combine_l in J.
  - clear N. revert ks. induction F as [|x x' l l' D F IH]; intros [|k ks]; cbn [combine]; constructor; [|auto]. now split.
Qed.
Lemma struct_of_same {A} ks (f : entries -> res A) v v' : NoDup ks -> same_data v v' ->
  (forall es es', same_data (DMap es) (DMap es') -> f es = f es') -> struct_of ks f v = struct_of ks f v'.
Proof.
  intros K S H. destruct S as [| | | |l l' F|es mid es' N P F]; try reflexivity; cbn [struct_of].
  - replace (List.length l') with (List.length l) by (clear - F; induction F; cbn; congruence).
    destruct (Nat.leb _ _); [|reflexivity]. now apply H, same_combine.
  - apply H. now econstructor; eauto.
Qed.
Ltac distinct_keys := repeat (constructor; [cbn; intros X; repeat (destruct X as [X|X]; [discriminate X|]); destruct X|]); constructor.
Lemma alike_str : alike get_str. Proof. now intros ? ? []. Qed.
Lemma alike_bool : alike get_bool. Proof. now intros ? ? []. Qed.
Lemma alike_num b : alike (get_num b). Proof. now intros ? ? []. Qed.
Lemma alike_variant {A} (p : string -> option A) : alike (variant p). Proof. now intros ? ? []. Qed.
Lemma alike_opt {A} (f : data -> res A) : alike f -> alike (opt f).
Proof. intros H v v' S. apply opt_same; auto. Qed.
Lemma alike_seq {A} (f : data -> res A) : alike f -> alike (seq_of f).
Proof. intros H v v' S. apply seq_same; auto. Qed.
Ltac even := repeat match goal with
  | H : alike ?f |- ?f _ = ?f _ => apply H; assumption
  | |- ?x = ?x => reflexivity
  | |- bind _ _ = bind _ _ => apply bind_same; [|intros ?]
  | |- need _ _ _ = need _ _ _ => apply need_same; [assumption|intros ? ? _ ?]
  | |- take_opt _ _ _ = take_opt _ _ _ => apply take_same; [assumption|intros ? ? _ ?]
  | |- take_list _ _ _ = take_list _ _ _ => apply take_list_same; [assumption|intros ? ? ? _ _ ?]
  | |- seq_of _ _ = seq_of _ _ => apply alike_seq; [|assumption]
  | |- struct _ _ = struct _ _ => apply struct_same; [assumption|intros ? ? _ ?]
  | |- struct_of _ _ _ = struct_of _ _ _ => apply struct_of_same; [distinct_keys|assumption|intros ? ? ?]
  | |- get_str _ = _ => now apply alike_str
  | |- get_bool _ = _ => now apply alike_bool
  | |- get_u32 _ = _ => now apply alike_num
  | |- get_u64 _ = _ => now apply alike_num
  | |- alike _ => assumption
  | |- get_access _ = _ => now apply alike_variant
  | |- get_usage _ = _ => now apply alike_variant
  | |- get_protection _ = _ => now apply alike_variant
  | |- get_mwv _ = _ => now apply alike_variant
  | |- get_read_action _ = _ => now apply alike_variant
  | |- get_endian _ = _ => now apply alike_variant
  | |- get_ab_usage _ = _ => now apply alike_variant
  | |- get_data_type _ = _ => now apply alike_variant
  end.
Lemma rp_same es es' : same_data (DMap es) (DMap es') -> rp_get es = rp_get es'.
Proof. intros S. unfold rp_get. even. Qed.
Lemma alike_ev : alike ev_get. Proof. intros v v' S. unfold ev_get. even. Qed.
Lemma alike_evs : alike evs_get. Proof. intros v v' S. pose proof alike_ev. unfold evs_get. even. Qed.
Lemma alike_dai : alike dai_get. Proof. intros v v' S. pose proof alike_ev. unfold dai_get. even. Qed.
Lemma alike_index : alike dim_index_get.
Proof.
  intros v v' S. unfold dim_index_get. apply opt_same; [exact S|]. rewrite (alike_seq _ alike_str v v' S).
  destruct (seq_of get_str v'); even.
Qed.
Lemma same_single k v es' : same_data (DMap [(k, v)]) (DMap es') -> exists v', es' = [(k, v')] /\ same_data v v'.
Proof.
  intros S. inversion S as [| | | | |es mid es0 N P F]; subst. apply Permutation_length_1_inv in P as ->.
  inversion F as [|? [k2 v2] ? ? [E D] F']; subst. inversion F'; subst. cbn [fst snd] in E, D. subst. eauto.
Qed.
Lemma same_length es es' : same_data (DMap es) (DMap es') -> List.length es = List.length es'.
Proof.
  intros S. inversion S as [| | | | |es0 mid es0' N P F]; subst. rewrite (Permutation_length P). clear - F. induction F; [reflexivity|]. cbn [List.length]. now f_equal.
Qed.
(** An externally tagged enum. *)
Lemma tagged_same {A} (f : string -> data -> res A) v v' : same_data v v' ->
  (forall k w w', v = DMap [(k, w)] -> same_data w w' -> f k w = f k w') ->
  match v with DMap [(k, w)] => f k w | _ => Err EDeserialize end =
  match v' with DMap [(k, w)] => f k w | _ => Err EDeserialize end.
Proof.
  intros S H. destruct v as [| | | | |es]; try (inversion S; reflexivity).
  assert (X : exists es', v' = DMap es') by (inversion S; eauto). destruct X as [es' ->].
  destruct es as [|[k w] [|e es]].
  - apply same_length in S. destruct es'; [reflexivity|discriminate].
  - apply same_single in S as (w' & -> & D). now apply H.
  - apply same_length in S. destruct es' as [|[k' w'] [|]]; [discriminate|discriminate|reflexivity].
Qed.
Lemma alike_wc : alike wc_get.
Proof.
  intros v v' S. unfold wc_get.
  apply (tagged_same (fun k v => if seqb k "writeAsRead" then let* b := get_bool v in Ok (WriteAsRead b)
      else if seqb k "useEnumeratedValues" then let* b := get_bool v in Ok (UseEnumeratedValues b)
      else if seqb k "range" then
        struct_of range_keys (fun es => let* lo := need "minimum" get_u64 es in let* hi := need "maximum" get_u64 es in Ok (WcRange lo hi)) v
      else Err EDeserialize) v v' S).
  intros k w w' _ D. destruct (seqb k _); [even|]. destruct (seqb k _); [even|]. destruct (seqb k _); even.
Qed.
Lemma de_same es es' : same_data (DMap es) (DMap es') -> de_get es = de_get es'.
Proof. intros S. pose proof alike_index. pose proof alike_dai. unfold de_get. even. Qed.
Lemma alike_ab : alike ab_get. Proof. intros v v' S. unfold ab_get. even. Qed.
Lemma alike_it : alike it_get. Proof. intros v v' S. unfold it_get. even. Qed.
Lemma alike_cpu : alike cpu_get. Proof. intros v v' S. unfold cpu_get. even. Qed.
Lemma ma_same {A} (get : entries -> res A) v v' : same_data v v' ->
  (forall es es', v = DMap es -> same_data (DMap es) (DMap es') -> get es = get es') -> ma_get get v = ma_get get v'.
Proof.
  intros S H. unfold ma_get. apply struct_same; [exact S|]. intros es es' E D. rewrite (de_same es es' D), (H es es' E D). reflexivity.
Qed.
Definition rc_tagged (m : mode) (k : string) (v : data) : res register_cluster :=
  if seqb k "register" then let* r := ma_get (register_get m) v in Ok (RCRegister r)
  else if seqb k "cluster" then let* c := ma_get (cluster_get (rc_get m)) v in Ok (RCCluster c)
  else Err EDeserialize.
Lemma rc_get_eq m v : rc_get m v = match v with DMap [(k, w)] => rc_tagged m k w | _ => Err EDeserialize end.
Proof. destruct v; reflexivity. Qed.
Section Same.
  Variable m : mode.
  Lemma br_same es es' : same_data (DMap es) (DMap es') -> br_get m es = br_get m es'.
  Proof.
    intros S. unfold br_get.
    rewrite (need_same "bitRange" get_str es es' S) by (intros; now apply alike_str).
    rewrite (need_same "bitOffset" get_u32 es es' S) by (intros; now apply alike_num).
    rewrite (need_same "bitWidth" get_u32 es es' S) by (intros; now apply alike_num).
    rewrite (need_same "lsb" get_u32 es es' S) by (intros; now apply alike_num).
    now rewrite (need_same "msb" get_u32 es es' S) by (intros; now apply alike_num).
  Qed.
  Lemma field_same es es' : same_data (DMap es) (DMap es') -> field_get m es = field_get m es'.
  Proof. intros S. pose proof alike_wc. pose proof alike_evs. unfold field_get. even. now apply br_same. Qed.
  Lemma register_same es es' : same_data (DMap es) (DMap es') -> register_get m es = register_get m es'.
  Proof.
    intros S. pose proof alike_wc. unfold register_get.
    assert (alike (ma_get (field_get m))) by (intros v v' D; apply ma_same; [exact D|intros; now apply field_same]).
    even. now apply rp_same.
  Qed.
  Lemma rc_same : alike (rc_get m).
  Proof.
    intros v. induction v as [v IH] using rc_data_ind. intros v' S. rewrite !rc_get_eq. apply tagged_same; [exact S|].
    intros k w w' -> D. unfold rc_tagged. destruct (seqb k "register").
    - apply bind_same; [|reflexivity]. apply ma_same; [exact D|]. intros; now apply register_same.
    - destruct (seqb k "cluster"); [|reflexivity]. apply bind_same; [|reflexivity]. apply ma_same; [exact D|].
      intros es es' -> F. unfold cluster_get. do 5 (apply bind_same; [even|intros ?]). apply bind_same; [now apply rp_same|intros ?].
      apply bind_same; [|intros ?; even]. apply need_same; [exact F|]. intros x x' I G. apply seq_same; [exact G|]. intros l y y' -> J. apply (IH k es "children"%string l y); auto.
  Qed.
  Lemma peripheral_same es es' : same_data (DMap es) (DMap es') -> peripheral_get m es = peripheral_get m es'.
  Proof.
    intros S. pose proof alike_ab. pose proof alike_it. pose proof rc_same. unfold peripheral_get. even. now apply rp_same.
  Qed.
  Lemma device_same : alike (device_get m).
  Proof.
    intros v v' S. pose proof alike_cpu. unfold device_get.
    assert (alike (ma_get (peripheral_get m))) by (intros ? ? D; apply ma_same; [exact D|intros; now apply peripheral_same]).
    even. now apply rp_same.
  Qed.
End Same.

(** ** What is read is in range *)
Lemma entry_yield {A} k (f : data -> res A) es o (P : A -> Prop) : entry k f es = Ok o ->
  (forall v a, In (k, v) es -> f v = Ok a -> P a) -> opt_all P o.
Proof. intros E H. destruct o as [a|]; [|exact I]. apply entry_in in E as (v & J & F). cbn. eauto. Qed.
Lemma need_yield {A} k (f : data -> res A) es a (P : A -> Prop) : need k f es = Ok a ->
  (forall v a, In (k, v) es -> f v = Ok a -> P a) -> P a.
Proof. intros E H. apply need_in in E as (v & J & F). eauto. Qed.
Lemma take_yield {A} k (f : data -> res A) es o (P : A -> Prop) : take_opt k f es = Ok o ->
  (forall v a, In (k, v) es -> f v = Ok a -> P a) -> opt_all P o.
Proof.
  unfold take_opt. intros E H. apply bind_ok in E as (x & E & X). injection X as <-.
  apply (entry_yield _ _ _ _ (opt_all P)) in E; [now destruct x|].
  intros v a I F. unfold opt in F. destruct v;
    [injection F as <-; exact Logic.I|..]; (apply bind_ok in F as (y & F & X); injection X as <-; cbn; eauto).
Qed.
Lemma seq_yield {A} (f : data -> res A) v l (P : A -> Prop) : seq_of f v = Ok l ->
  (forall xs x a, v = DSeq xs -> In x xs -> f x = Ok a -> P a) -> Forall P l.
Proof.
  destruct v as [| | | |xs|]; try discriminate. cbn [seq_of]. intros E H. apply mapM_ok in E.
  apply Forall_forall. intros a I. destruct (Forall2_in_r _ _ _ E _ I) as (x & J & F). eauto.
Qed.
Lemma take_list_yield {A} k (f : data -> res A) es l (P : A -> Prop) : take_list k f es = Ok l ->
  (forall xs x a, In (k, DSeq xs) es -> In x xs -> f x = Ok a -> P a) -> Forall P l.
Proof.
  unfold take_list. intros E H. apply bind_ok in E as (x & E & X). injection X as <-.
  apply (entry_yield _ _ _ _ (Forall P)) in E; [destruct x; [exact E|constructor]|].
  intros v a I F. eapply seq_yield; [exact F|]. intros xs x' a' -> J. eauto.
Qed.
Lemma num_below b k es o : take_opt k (get_num b) es = Ok o -> below b o.
Proof. intros E. unfold below. eapply take_yield; [exact E|]. intros v a _ F. now apply get_num_ok in F. Qed.
Lemma num_need b k es n : need k (get_num b) es = Ok n -> n < b.
Proof. intros E. eapply (need_yield _ _ _ _ (fun n => n < b)); [exact E|]. intros v a _ F. now apply get_num_ok in F. Qed.
Ltac binds H := repeat match type of H with
  | bind _ _ = Ok _ => let a := fresh "a" in let E := fresh "Eb" in apply bind_ok in H as (a & E & H)
  end; injection H as <-.
Lemma struct_of_ok {A} ks (f : entries -> res A) v a : struct_of ks f v = Ok a -> exists es, f es = Ok a.
Proof. destruct v; try discriminate; cbn [struct_of]; [destruct (Nat.leb _ _); [eauto|discriminate]|eauto]. Qed.
Ltac in_map f v H := unfold f in H; apply struct_of_ok in H as [? H]; binds H.
Lemma rp_yield es p : rp_get es = Ok p -> props_in p.
Proof. intros H. unfold rp_get in H. binds H. unfold props_in. cbn. conjs; eapply num_below; eauto. Qed.
Lemma ev_yield v e : ev_get v = Ok e -> value_in e.
Proof. intros H. in_map ev_get v H. unfold value_in. cbn. eapply num_below; eauto. Qed.
Lemma evs_yield v e : evs_get v = Ok e -> values_in e.
Proof. intros H. in_map evs_get v H. unfold values_in. cbn. eapply take_list_yield; eauto. intros. eapply ev_yield; eauto. Qed.
Lemma dai_yield v d : dai_get v = Ok d -> Forall value_in (dai_values d).
Proof.
  intros H. in_map dai_get v H. cbn. eapply (need_yield _ _ _ _ (Forall value_in)); [eassumption|]. intros v0 l _ F. eapply seq_yield; [exact F|].
  intros. eapply ev_yield; eauto.
Qed.
Lemma wc_yield v w : wc_get v = Ok w -> constraint_fits w.
Proof.
  unfold wc_get. destruct v as [| | | | |[|[k v] [|]]]; try discriminate.
  destruct (seqb k _); [intros H; binds H; exact I|]. destruct (seqb k _); [intros H; binds H; exact I|].
  destruct (seqb k _); [|discriminate]. intros H. apply struct_of_ok in H as [? H]. binds H.
  split; eapply num_need; eauto.
Qed.
Definition any_list (l : list string) : Prop := True.
Lemma de_yield es d : de_get es = Ok d -> dim_holds any_list d.
Proof.
  intros H. unfold de_get in H. binds H. unfold dim_holds. cbn. conjs; try (eapply num_need; eassumption).
  - match goal with |- opt_all _ ?o => now destruct o end.
  - eapply take_yield; [eassumption|]. intros. eapply dai_yield; eauto.
Qed.
Lemma ma_yield {A} (get : entries -> res A) (P : A -> Prop) v x : ma_get get v = Ok x ->
  (forall es a, v = DMap es -> get es = Ok a -> P a) -> any_holds any_list P x.
Proof.
  intros H G. unfold ma_get, struct in H. destruct v as [| | | | |es]; try discriminate.
  destruct (de_get es) eqn:D; [| |discriminate]; binds H; cbn; [split; [|now apply de_yield in D]|]; eauto.
Qed.
Section Yield.
  Variables (m : mode) (B : bit_range -> Prop).
  Hypothesis Hb : forall es b, br_get m es = Ok b -> B b.
  Lemma field_yield es f : field_get m es = Ok f -> field_holds B f.
  Proof.
    intros H. unfold field_get in H. binds H. unfold field_holds. cbn. conjs.
    - eauto.
    - eapply take_yield; [eassumption|]. intros. eapply wc_yield; eauto.
    - eapply take_list_yield; [eassumption|]. intros. eapply evs_yield; eauto.
  Qed.
  Lemma register_yield es r : register_get m es = Ok r -> register_holds any_list B r.
  Proof.
    intros H. unfold register_get in H. binds H. unfold register_holds. cbn. conjs.
    - eapply num_need; eauto.
    - eapply rp_yield; eauto.
    - eapply take_yield; [eassumption|]. intros. eapply wc_yield; eauto.
    - eapply (take_yield _ _ _ _ (Forall _)); [eassumption|]. intros v l _ F. eapply seq_yield; [exact F|].
      intros xs x a' _ _ G. eapply ma_yield; [exact G|]. intros. eapply field_yield; eauto.
  Qed.
  Lemma rc_yield v rc : rc_get m v = Ok rc -> rc_holds any_list B rc.
  Proof.
    revert rc. induction v as [v IH] using rc_data_ind. intros rc H. rewrite rc_get_eq in H.
    destruct v as [| | | | |[|[k v] [|]]]; try discriminate. unfold rc_tagged in H. destruct (seqb k "register").
    - binds H. constructor. eapply ma_yield; [eassumption|]. intros. eapply register_yield; eauto.
    - destruct (seqb k "cluster"); [|discriminate]. binds H.
      assert (X : any_holds any_list (fun c => cluster_in c /\ Forall (rc_holds any_list B) (c_children c)) a).
      { eapply ma_yield; [eassumption|]. intros es c -> G. unfold cluster_get in G. binds G. cbn. conjs.
        - split; cbn; [eapply num_need; eauto|eapply rp_yield; eauto].
        - eapply (need_yield _ _ _ _ (Forall _)); [eassumption|]. intros w l J F. eapply seq_yield; [exact F|].
          intros xs x a' -> K G. eapply IH; eauto; reflexivity. }
      destruct a as [c|c d]; cbn in X; constructor; cbn [any_holds info]; tauto.
  Qed.
  Lemma peripheral_yield es p : peripheral_get m es = Ok p -> peripheral_holds any_list B p.
  Proof.
    intros H. unfold peripheral_get in H. binds H. unfold peripheral_holds. cbn. conjs.
    - eapply num_need; eauto.
    - eapply rp_yield; eauto.
    - eapply (take_yield _ _ _ _ (Forall _)); [eassumption|]. intros v l _ F. eapply seq_yield; [exact F|].
      intros xs x b _ _ G. in_map ab_get x G. split; cbn; eapply num_need; eauto.
    - eapply take_list_yield; [eassumption|]. intros xs x b _ _ G. in_map it_get x G. cbn. eapply num_need; eauto.
    - eapply (take_yield _ _ _ _ (Forall _)); [eassumption|]. intros v l _ F. eapply seq_yield; [exact F|].
      intros. eapply rc_yield; eauto.
  Qed.
  Lemma device_yield v d : device_get m v = Ok d -> device_holds any_list B d /\ usual_header d.
  Proof.
    intros H. unfold device_get, struct in H; destruct v; try discriminate H; binds H. unfold device_holds, usual_header. cbn. conjs; try reflexivity.
    - eapply take_yield; [eassumption|]. intros v c _ G. in_map cpu_get v G. unfold cpu_in. cbn. conjs; (eapply num_need || eapply num_below); eauto.
    - eapply num_need; eauto.
    - eapply num_need; eauto.
    - eapply rp_yield; eauto.
    - eapply (need_yield _ _ _ _ (Forall _)); [eassumption|]. intros v l _ F. eapply seq_yield; [exact F|].
      intros xs x b _ _ G. eapply ma_yield; [exact G|]. intros. eapply peripheral_yield; eauto.
  Qed.
End Yield.
Lemma br_cases m es b : br_get m es = Ok b ->
  bits_ranged b /\ (br_type b = BRT_OffsetWidth \/
    exists h, h < 2 ^ 32 /\ bit_width m h (br_offset b) = Ok (br_width b)).
Proof.
  unfold br_get, bits_ranged. intros H. destruct (need "bitRange" get_str es) as [t|e|p] eqn:E.
  - apply bind_ok in H as (o & F & H). rewrite from_brackets in F. destruct (brackets t) as [[h l]|e|p] eqn:K; [|injection F as <-; discriminate H..].
    apply bind_ok in F as (w & W & F). injection F as <-. injection H as <-. cbn [br_offset br_width br_type].
    apply brackets_bracketed in K as (?&?&?&?&?&?&?&?&Hh&Hl). pose proof W as W'. apply bit_width_span in W' as [[S _] _]; [|assumption..].
    split; [split; assumption|]. right. exists h. auto.
  - destruct (need "bitOffset" get_u32 es) as [o| |] eqn:O, (need "bitWidth" get_u32 es) as [w| |] eqn:W.
    { injection H as <-. apply num_need in O, W. cbn. split; [split; assumption|now left]. }
    all: (destruct (need "lsb" get_u32 es) as [l| |] eqn:L; [|discriminate..]; destruct (need "msb" get_u32 es) as [h| |] eqn:M; [|discriminate..];
      apply num_need in L, M; unfold br_from_msb_lsb in H; rewrite <- bind_assoc in H; apply bind_ok in H as (x & X & H); injection H as <-;
      cbn [br_offset br_width br_type]; pose proof X as X'; apply (bit_width_span m h l) in X' as [[S _] _]; [|assumption..];
      split; [split; assumption|]; right; exists h; auto).
  - destruct (need "bitOffset" get_u32 es) as [o| |] eqn:O, (need "bitWidth" get_u32 es) as [w| |] eqn:W.
    { injection H as <-. apply num_need in O, W. cbn. split; [split; assumption|now left]. }
    all: (destruct (need "lsb" get_u32 es) as [l| |] eqn:L; [|discriminate..]; destruct (need "msb" get_u32 es) as [h| |] eqn:M; [|discriminate..];
      apply num_need in L, M; unfold br_from_msb_lsb in H; rewrite <- bind_assoc in H; apply bind_ok in H as (x & X & H); injection H as <-;
      cbn [br_offset br_width br_type]; pose proof X as X'; apply (bit_width_span m h l) in X' as [[S _] _]; [|assumption..];
      split; [split; assumption|]; right; exists h; auto).
Qed.
Lemma br_checked es b : br_get Debug es = Ok b -> bits_read b.
Proof.
  intros H. apply br_cases in H as [[R1 R2] H]. split; [exact R1|]. split; [exact R2|]. intros T. destruct H as [H|(h & L & H)]; [contradiction|].
  apply bit_width_span in H as [[S1 S2] N]; [|assumption..]. specialize (N eq_refl). unfold bad_span in N. lia.
Qed.
(** ** Other conditions on index lists and bit ranges *)
Section Change.
  Variables (J J' : list string -> Prop) (B B' : bit_range -> Prop).
  Hypothesis Hb : forall b, B b -> B' b.
  Lemma any_change {A} (P P' : A -> Prop) x : (P (info x) -> P' (info x)) -> (forall a d, x = Array a d -> opt_all J' (de_index d)) ->
    any_holds J P x -> any_holds J' P' x.
  Proof.
    destruct x as [a|a d]; cbn [any_holds info]; intros H K; [exact H|]. intros [X (D1 & D2 & D3 & D4)].
    split; [auto|]. unfold dim_holds. eauto.
  Qed.
  Lemma register_change r : (forall n a, array_in_register r n a -> opt_all J' (de_index a)) ->
    register_holds J B r -> register_holds J' B' r.
  Proof.
    intros K (H1 & H2 & H3 & H4). unfold register_holds. conjs; auto. destruct (r_fields r) as [fs|] eqn:E; [|exact I]. cbn in *.
    rewrite Forall_forall in *. intros f I. specialize (H4 f I). revert H4. apply any_change.
    - unfold field_holds. intuition.
    - intros a d ->. eapply K. econstructor; eauto.
  Qed.
  Lemma rc_change rc : (forall n a, array_in_rc rc n a -> opt_all J' (de_index a)) -> rc_holds J B rc -> rc_holds J' B' rc.
  Proof.
    induction rc as [r|c IH] using rc_tree_ind; intros K H.
    - constructor. assert (X : any_holds J (register_holds J B) r) by now inversion H. revert X. apply any_change.
      + apply register_change. intros n a I. eapply K. apply ac_in_register. exact I.
      + intros a d ->. eapply K. apply ac_register.
    - assert (X : any_holds J cluster_in c /\ Forall (rc_holds J B) (c_children (info c))) by (inversion H; now split).
      destruct X as [X Y]. constructor.
      + revert X. apply any_change; [auto|]. intros a d ->. eapply K. apply ac_cluster.
      + rewrite Forall_forall in *. intros rc I. apply IH; auto. intros n a L. eapply K. eapply ac_child; eauto.
  Qed.
  Lemma device_change d : (forall n a, array_in_device d n a -> opt_all J' (de_index a)) -> device_holds J B d -> device_holds J' B' d.
  Proof.
    intros K (H1 & H2 & H3 & H4 & H5). unfold device_holds. conjs; auto. rewrite Forall_forall in *. intros p I. specialize (H5 p I).
    revert H5. apply any_change.
    - intros (P1 & P2 & P3 & P4 & P5). unfold peripheral_holds. conjs; auto. destruct (p_registers (info p)) as [rs|] eqn:E; [|exact Logic.I].
      cbn in *. rewrite Forall_forall in *. intros rc L. apply rc_change; auto. intros n a M. eapply K. eapply ad_child; [exact I|]. econstructor; eauto.
    - intros a e ->. eapply K. eapply ad_peripheral; exact I.
  Qed.
End Change.
Lemma device_stable m v d : device_get Debug v = Ok d ->
  (forall n a, array_in_device d n a -> exists is, de_index a = Some is /\ indexes_in is) ->
  exists v', device_put Release d = Ok v' /\ device_get m v' = Ok d.
Proof.
  intros H K. destruct (device_yield Debug bits_read br_checked v d H) as [Y U].
  destruct (device_back Release m d) as (v' & E & G).
  - unfold device_in. eapply device_change; [| |exact Y].
    + intros b (B1 & B2 & B3). unfold bits_in. conjs; auto. intros T. destruct (B3 T). conjs; auto. discriminate.
    + intros n a I. destruct (K n a I) as (is & -> & X). exact X.
  - exists v'. split; [exact E|]. rewrite G. f_equal. apply b_device_id; [|exact U].
    intros n a I. destruct (K n a I) as (is & -> & _). discriminate.
Qed.

(** ** Index lists *)
Lemma glue_chars sep l c : In c (list_ascii_of_string (glue sep l)) ->
  c = sep \/ exists p, In p l /\ In c (list_ascii_of_string p).
Proof.
  induction l as [|p [|q l] IH]; cbn [glue]; [intros []|eauto using in_eq|]. intros H.
  assert (A : forall a b, list_ascii_of_string (a ++ b) = list_ascii_of_string a ++ list_ascii_of_string b).
  { clear. induction a as [|x a IH]; intros b; [reflexivity|]. cbn. now rewrite IH. }
  rewrite A in H. apply in_app_or in H as [H|H]; [right; exists p; split; [now left|exact H]|].
  cbn [list_ascii_of_string] in H. destruct H as [<-|H]; [now left|]. destruct (IH H) as [E|(x & I & J)]; [now left|].
  right. exists x. split; [now right|exact J].
Qed.
Lemma chars_glue sep l p c : In p l -> In c (list_ascii_of_string p) -> In c (list_ascii_of_string (glue sep l)).
Proof.
  assert (A : forall a b, list_ascii_of_string (a ++ b) = list_ascii_of_string a ++ list_ascii_of_string b).
  { clear. induction a as [|x a IH]; intros b; [reflexivity|]. cbn. now rewrite IH. }
  induction l as [|q [|r l] IH]; intros I J; [destruct I|destruct I as [<-|[]]; exact J|].
  cbn [glue]. rewrite A. apply in_or_app. destruct I as [<-|I]; [now left|right]. cbn. right. now apply IH.
Qed.
Lemma glue_free sep l c : c <> sep -> (free_of c (glue sep l) <-> Forall (free_of c) l).
Proof.
  intros N. unfold free_of. rewrite Forall_forall. split.
  - intros H p I J. apply H. eapply chars_glue; eauto.
  - intros H I. apply glue_chars in I as [->|(p & I & J)]; [now apply N|]. exact (H p I J).
Qed.
Lemma no_dash_list l : Forall (free_of "-") l -> ~ exists a b, glue "," l = (a ++ String "-" b)%string.
Proof.
  intros F (a & b & E). apply (glue_free ",") in F; [|discriminate]. apply F. rewrite E. clear.
  induction a as [|c a IH]; [now left|]. cbn. now right.
Qed.
Lemma indexes_back l : dim_index_get (dim_index_put l) = Ok (Some l) <-> indexes_in l.
Proof.
  assert (X : dim_index_get (dim_index_put l) = Ok (Some l) <-> index_list (glue "," l) l).
  { rewrite <- parse_indexes_spec, <- join_glue. cbv [dim_index_get dim_index_put opt seq_of get_str bind].
    destruct (parse_indexes (join "," l)); cbn [ok_or]; split; congruence. }
  rewrite X. unfold indexes_in. split.
  - intros [A B a b E HA HB La Lb Le L K|a b E S Le L K|F (N & _ & Fc)].
    + exfalso. apply (no_dash_list l); [|now exists A, B]. apply Forall_forall. intros s I. apply In_nth_error in I as [i I].
      apply K in I as [I _]. now apply digits_free_dash in I.
    + exfalso. apply (no_dash_list l); [|now exists (String a ""), (String b "")]. apply Forall_forall. intros s I.
      apply In_nth_error in I as [i I]. assert (J : (i < List.length l)%nat) by (apply nth_error_Some; congruence).
      rewrite L in J. apply K in I as ->. unfold letter_at. intros [D|[]].
      assert (nat_of_ascii (ascii_of_nat (nat_of_ascii a + i)) = 45%nat) by now rewrite D.
      assert (nat_of_ascii b < 256)%nat by apply nat_ascii_bounded. rewrite nat_ascii_embedding in * by lia.
      destruct S as [[? ?]|[? ?]]; lia.
    + conjs; [exact N|exact Fc|]. now apply (glue_free ",") in F.
  - intros (N & Fc & F). apply il_list; [now apply glue_free|]. now split.
Qed.
