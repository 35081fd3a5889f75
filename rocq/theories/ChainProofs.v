From Verif Require Import BaseFacts Types TreeFacts BuilderProofs Derive DeriveProofs Arrays ArrayProofs IndexProofs InstanceProofs SpecArray SpecDerive SpecPath SpecExpand Expand PathProofs ExpandProofs PlaceProofs.

(** ** Nearest *)
Lemma nearest_self {A B} (get : A -> option B) x : nearest get [x] (get x).
Proof. cbn. destruct (get x); [left; eauto|right; auto]. Qed.
Lemma nearest_list_self {A B} (get : A -> list B) x : nearest_list get [x] (get x).
Proof. cbn. destruct (get x) eqn:E; [right; auto|left]. split; [congruence|auto]. Qed.
Lemma nearest_props_self {A} (get : A -> reg_props) x : nearest_props get [x] (get x).
Proof. unfold nearest_props. conjs; apply (nearest_self (fun x => _ (get x))). Qed.
Lemma nearest_step {A B} (get : A -> option B) x y z l v : get z = opt_or (get x) (get y) ->
  nearest get (z :: l) v -> nearest get (x :: y :: l) v.
Proof.
  intros E. cbn [nearest]. rewrite E. destruct (get x) as [a|]; cbn [opt_or].
  - intros [H|[H _]]; [left; exact H|discriminate].
  - intros H. right. split; [reflexivity|exact H].
Qed.
Lemma nearest_list_step {A B} (get : A -> list B) x y z l v : get z = list_or (get x) (get y) ->
  nearest_list get (z :: l) v -> nearest_list get (x :: y :: l) v.
Proof.
  intros E. cbn [nearest_list]. rewrite E. unfold list_or. destruct (get x) as [|a k]; cbn [is_nil].
  - intros H. right. split; [reflexivity|exact H].
  - intros [H|[H _]]; [left; exact H|discriminate].
Qed.
Lemma nearest_props_step {A} (get : A -> reg_props) x y z l v : get z = rp_derive (get x) (get y) ->
  nearest_props get (z :: l) v -> nearest_props get (x :: y :: l) v.
Proof.
  intros E (H1 & H2 & H3 & H4 & H5). unfold nearest_props.
  conjs; (eapply nearest_step; [|eassumption]); cbn beta; rewrite E; reflexivity.
Qed.
Lemma nearest_dims_self {A} (name : A -> string) x : nearest_dims name x [] x.
Proof.
  unfold nearest_dims. destruct (dims x); [reflexivity|]. split; [|reflexivity].
  intros _. exists None. cbn. auto.
Qed.
Lemma nearest_dims_step {A} (name : A -> string) der x y l z :
  (forall a b, name (der a b) = name a) ->
  nearest_dims name (ma_derive name der x y) l z -> nearest_dims name x (y :: l) z.
Proof.
  intros Hn. unfold nearest_dims. rewrite ma_dims, ma_derive_info, Hn.
  destruct (dims x) as [e|] eqn:Ex; [auto|].
  destruct (contains "%s" (name (info x))) eqn:C.
  - apply contains_occurs in C. destruct (dims y) as [e|] eqn:Ey; cbn [option_map].
    + intros H. split; [|contradiction]. intros _. exists (Some e). split; [left; eauto|]. rewrite H. cbn. auto.
    + intros [H _]. split; [|contradiction]. intros O. destruct (H O) as (o & N & K). exists o. split; [right; auto|exact K].
  - assert (No : ~ occurs "%s" (name (info x))) by (intros O; apply contains_occurs in O; congruence).
    intros [_ H]. split; [contradiction|auto].
Qed.

(** ** One derivation step *)
Ltac near H := first [ exact H | eapply nearest_step; [|exact H]; reflexivity
  | eapply nearest_list_step; [|exact H]; reflexivity | eapply nearest_props_step; [|exact H]; reflexivity ].
Lemma values_from_self x : evs_derived_from x = None -> values_from x [] x.
Proof. intros H. unfold values_from. conjs; auto using nearest_self, nearest_list_self. Qed.
Lemma values_from_step x y l z : values_from (evs_derive x y) l z -> values_from x (y :: l) z.
Proof.
  unfold values_from. intros (H1 & H2 & H3 & H4). conjs; [near H1|near H2|near H3|near H4].
Qed.
Lemma field_from_self x : f_derived_from (info x) = None -> field_from x [] x.
Proof.
  intros H. unfold field_from. cbv zeta; cbn [map].
  conjs; first [reflexivity | exact H | apply nearest_self | apply nearest_list_self | apply nearest_dims_self].
Qed.
Lemma field_from_step x y l z : field_from (field_ma_derive x y) l z -> field_from x (y :: l) z.
Proof.
  unfold field_from, field_ma_derive. cbv zeta; cbn [map]. intros (H0 & H). split; [eapply nearest_dims_step; [|exact H0]; reflexivity|].
  rewrite ma_derive_info in H. destruct H as (H1 & H2 & H3 & H4 & H5 & H6 & H7 & H8 & H9).
  conjs; [near H1|near H2|near H3|near H4|near H5|near H6|near H7|near H8|near H9].
Qed.
Lemma register_from_self x : r_derived_from (info x) = None -> register_from x [] x.
Proof.
  intros H. unfold register_from. cbv zeta; cbn [map].
  conjs; first [reflexivity | exact H | apply nearest_self | apply nearest_list_self | apply nearest_dims_self | apply nearest_props_self].
Qed.
Lemma register_from_step x y l z : register_from (register_ma_derive x y) l z -> register_from x (y :: l) z.
Proof.
  unfold register_from, register_ma_derive. cbv zeta; cbn [map]. intros (H0 & H).
  split; [eapply nearest_dims_step; [|exact H0]; reflexivity|].
  rewrite ma_derive_info in H.
  destruct H as (H1 & H2 & H3 & H4 & H5 & H6 & H7 & H8 & H9 & H10 & H11 & H12 & H13).
  conjs; [near H1|near H2|near H3|near H4|near H5|near H6|near H7|near H8|near H9|near H10|near H11|near H12|near H13].
Qed.
Lemma cluster_from_self x : c_derived_from (info x) = None -> cluster_from x [] x.
Proof.
  intros H. unfold cluster_from. cbv zeta; cbn [map].
  conjs; first [reflexivity | exact H | apply nearest_self | apply nearest_list_self | apply nearest_dims_self | apply nearest_props_self].
Qed.
Lemma cluster_from_step x y l z : cluster_from (cluster_ma_derive x y) l z -> cluster_from x (y :: l) z.
Proof.
  unfold cluster_from, cluster_ma_derive. cbv zeta; cbn [map]. intros (H0 & H).
  split; [eapply nearest_dims_step; [|exact H0]; reflexivity|].
  rewrite ma_derive_info in H. destruct H as (H1 & H2 & H3 & H4 & H5 & H6 & H7 & H8).
  conjs; [near H1|near H2|near H3|near H4|near H5|near H6|near H7|near H8].
Qed.
Lemma peripheral_from_self x : p_derived_from (info x) = None -> peripheral_from x [] x.
Proof.
  intros H. unfold peripheral_from. cbv zeta; cbn [map].
  conjs; first [reflexivity | exact H | apply nearest_self | apply nearest_list_self | apply nearest_dims_self | apply nearest_props_self].
Qed.
Lemma peripheral_from_step x y l z : peripheral_from (peripheral_ma_derive x y) l z -> peripheral_from x (y :: l) z.
Proof.
  unfold peripheral_from, peripheral_ma_derive. cbv zeta; cbn [map]. intros (H0 & H).
  split; [eapply nearest_dims_step; [|exact H0]; reflexivity|].
  rewrite ma_derive_info in H.
  destruct H as (H1 & H2 & H3 & H4 & H5 & H6 & H7 & H8 & H9 & H10 & H11 & H12 & H13 & H14 & H15).
  conjs; [near H1|near H2|near H3|near H4|near H5|near H6|near H7|near H8|near H9|near H10|near H11|near H12|near H13|near H14|near H15].
Qed.

(** ** Origins *)
Lemma origin_none {A} (empty : A -> Prop) x own : origin empty x [] own own.
Proof. right. auto. Qed.
(** How the returned path relates to the chain. *)
Definition returned {A P} (empty : A -> Prop) (parts : P -> list string) (x : A)
    (chain : list (list string * A)) (o : option P) : Prop :=
  exists before path y, chain = before ++ [(path, y)] /\
    match o with
    | Some q => path = parts q /\ empty x /\ Forall (fun z => empty (snd z)) before
    | None => ~ (empty x /\ Forall (fun z => empty (snd z)) before)
    end.
Lemma returned_origin {A P} (empty : A -> Prop) (parts : P -> list string) x chain o own :
  returned empty parts x chain o -> origin empty x chain (parts own) (parts (opt_default own o)).
Proof.
  intros (before & path & y & -> & H). destruct o as [q|]; cbn [opt_default].
  - destruct H as (-> & E & F). left. exists before, y. auto.
  - right. split; [reflexivity|]. right. eauto.
Qed.
Lemma returned_last {A P} (empty : A -> Prop) (parts : P -> list string) x path y (o : option P) :
  match o with Some q => path = parts q /\ empty x | None => ~ empty x end ->
  returned empty parts x [(path, y)] o.
Proof.
  intros H. exists [], path, y. split; [reflexivity|]. destruct o; [destruct H|]; auto. intros [K _]. auto.
Qed.
Lemma returned_step {A P} (empty : A -> Prop) (parts : P -> list string) x x' y path chain (o : option P) :
  (empty x' <-> empty x /\ empty y) -> returned empty parts x' chain o ->
  returned empty parts x ((path, y) :: chain) o.
Proof.
  intros E (before & path' & z & -> & H). exists ((path, y) :: before), path', z. split; [reflexivity|].
  destruct o.
  - destruct H as (-> & Ex & F). apply E in Ex as [Ex Ey]. auto.
  - intros [Ex F]. inversion F; subst. apply H. split; [apply E; auto|assumption].
Qed.
Lemma is_nil_true {A} (l : list A) : is_nil l = true <-> l = [].
Proof. destruct l; cbn; split; congruence. Qed.
Lemma is_none_true {A} (l : option A) : is_none l = true <-> l = None.
Proof. destruct l; cbn; split; congruence. Qed.
Lemma list_or_nil {A} (a b : list A) : list_or a b = [] <-> a = [] /\ b = [].
Proof. unfold list_or. destruct a; cbn; split; intros; intuition congruence. Qed.
Lemma opt_or_none {A} (a b : option A) : opt_or a b = None <-> a = None /\ b = None.
Proof. destruct a; cbn; split; intros; intuition congruence. Qed.

(** ** Resolution *)
Lemma removelast_snoc {A} (l : list A) x : removelast (l ++ [x]) = l.
Proof. apply removelast_last. Qed.
Lemma resolves_block s o n b : bp_parse_str s = Ok (o, n) ->
  resolves (block_parts b) s (block_parts (opt_default b o) ++ [n]).
Proof.
  intros H. apply bp_parse_str_spec in H. eexists. split; [exact H|]. destruct o as [q|]; cbn [optional_parts opt_default].
  - right. split; [unfold block_parts; rewrite app_length; cbn; lia|reflexivity].
  - left. exists n. auto.
Qed.
Lemma resolves_register s o n b : fp_parse_str s = Ok (o, n) ->
  resolves (register_parts b) s (register_parts (opt_default b o) ++ [n]).
Proof.
  intros H. apply fp_parse_str_spec in H. eexists. split; [exact H|]. destruct o as [q|]; cbn [optional_parts opt_default].
  - right. split; [unfold register_parts, block_parts; rewrite !app_length; cbn; lia|reflexivity].
  - left. exists n. auto.
Qed.
Lemma self_block b o n name : bp_eqb (opt_default b o) b && seqb n name = false ->
  ~ block_parts (opt_default b o) ++ [n] = block_parts b ++ [name].
Proof.
  intros H E. apply app_inj_tail in E as [E ->]. apply block_parts_inj in E. rewrite E in H.
  rewrite (proj2 (bp_eqb_eq _ _) eq_refl), seqb_refl in H. discriminate.
Qed.
Lemma self_register b o n name : rg_eqb (opt_default b o) b && seqb n name = false ->
  ~ register_parts (opt_default b o) ++ [n] = register_parts b ++ [name].
Proof.
  intros H E. apply app_inj_tail in E as [E ->]. apply register_parts_inj in E. rewrite E in H.
  rewrite (proj2 (rg_eqb_eq _ _) eq_refl), seqb_refl in H. discriminate.
Qed.
Lemma ok_or_ok {A} (o : option A) e a : ok_or o e = Ok a -> o = Some a.
Proof. destruct o; cbn; congruence. Qed.
Ltac flag := match goal with
  | |- context [is_nil ?l] => destruct (is_nil l) eqn:Fl; [apply is_nil_true in Fl|]
  | |- context [is_none ?l] => destruct (is_none l) eqn:Fl; [apply is_none_true in Fl|]
  end.

Section Chains.
  Variables (d : device) (ix : index).
  Hypothesis Hix : index_create d = Ok ix.

  Lemma derive_peripheral_chain fuel : forall p s p' o, p_derived_from (info p) = None ->
    derive_peripheral ix fuel p s = Ok (p', o) -> exists chain, forall ctx,
      follows_peripherals d (p_name (info p)) ctx (Some s) chain /\
      peripheral_from p (paths chain) p' /\
      returned (fun x => p_registers (info x) = None) block_parts p chain o.
  Proof.
    induction fuel as [|k IH]; intros p s p' o N; cbn [derive_peripheral]; [discriminate|].
    destruct (seqb s (p_name (info p))) eqn:Es; [discriminate|]. apply seqb_neq in Es.
    intros H. bnd H x E. apply ok_or_ok in E. pose proof (ix_peripheral_sound d ix Hix _ _ E) as P.
    assert (I : info (peripheral_ma_derive p x) = peripheral_derive (info p) (info x)) by apply ma_derive_info.
    destruct (p_derived_from (info x)) as [s'|] eqn:D.
    - apply IH in H as (chain & H); [|now rewrite I].
      exists (([s], x) :: chain). intros ctx. destruct (H []) as (F & G & R).
      rewrite I in F. conjs.
      + apply fo_step; [split; [reflexivity|exact P]|exact Es|]. cbn [removelast]. rewrite D. exact F.
      + cbn [paths map snd]. apply peripheral_from_step. exact G.
      + eapply returned_step; [|exact R]. cbv beta. rewrite I. apply opt_or_none.
    - injection H as <- <-. exists [([s], x)]. intros ctx. conjs.
      + apply fo_step; [split; [reflexivity|exact P]|exact Es|]. rewrite D. constructor.
      + cbn [paths map snd]. apply peripheral_from_step, peripheral_from_self. now rewrite I.
      + apply returned_last. flag; [split; [reflexivity|exact Fl]|].
        intros K. rewrite K in Fl. discriminate.
  Qed.
  Lemma derive_cluster_chain fuel : forall (p : cluster) s b p' o, c_derived_from (info p) = None ->
    derive_cluster ix fuel p s b = Ok (p', o) -> exists chain,
      follows_clusters d (c_name (info p)) (block_parts b) (Some s) chain /\
      cluster_from p (paths chain) p' /\
      returned (fun x : cluster => c_children (info x) = []) block_parts p chain o.
  Proof.
    induction fuel as [|k IH]; intros p s b p' o N; cbn [derive_cluster]; [discriminate|].
    intros H. bnd H q Hq. destruct q as [oq n]. cbn [fst snd] in H.
    destruct (_ && _) eqn:Es; [discriminate|]. apply self_block in Es.
    bnd H x E. apply ok_or_ok in E. pose proof (ix_cluster_sound d ix Hix _ _ E) as P.
    change (block_parts (new_cluster (opt_default b oq) n)) with (block_parts (opt_default b oq) ++ [n]) in P.
    pose proof (resolves_block _ _ _ b Hq) as R0.
    assert (I : info (cluster_ma_derive p x) = cluster_derive (info p) (info x)) by apply ma_derive_info.
    assert (N1 : c_derived_from (info (cluster_ma_derive p x)) = None) by (rewrite I; exact N).
    destruct (c_derived_from (info x)) as [s'|] eqn:D.
    - destruct (IH _ _ _ _ _ N1 H) as (chain & F & G & R). rewrite I in F.
      eexists ((_, x) :: chain). conjs.
      + apply fo_step; [split; [exact R0|exact P]|exact Es|]. rewrite removelast_snoc, D. exact F.
      + cbn [paths map snd]. apply cluster_from_step. exact G.
      + eapply returned_step; [|exact R]. cbv beta. rewrite I. apply list_or_nil.
    - injection H as <- <-. eexists [(_, x)]. conjs.
      + apply fo_step; [split; [exact R0|exact P]|exact Es|]. rewrite D. constructor.
      + cbn [paths map snd]. apply cluster_from_step, cluster_from_self. exact N1.
      + apply returned_last. flag; [split; [reflexivity|exact Fl]|].
        intros K. rewrite K in Fl. discriminate.
  Qed.
  Lemma derive_register_chain fuel : forall p s b p' o, r_derived_from (info p) = None ->
    derive_register ix fuel p s b = Ok (p', o) -> exists chain,
      follows_registers d (r_name (info p)) (block_parts b) (Some s) chain /\
      register_from p (paths chain) p' /\
      returned (fun x => r_fields (info x) = None) register_parts p chain o.
  Proof.
    induction fuel as [|k IH]; intros p s b p' o N; cbn [derive_register]; [discriminate|].
    intros H. bnd H q Hq. destruct q as [oq n]. cbn [fst snd] in H.
    destruct (_ && _) eqn:Es; [discriminate|]. apply self_block in Es.
    bnd H x E. apply ok_or_ok in E. pose proof (ix_register_sound d ix Hix _ _ E) as P.
    change (register_parts (new_register (opt_default b oq) n)) with (block_parts (opt_default b oq) ++ [n]) in P.
    pose proof (resolves_block _ _ _ b Hq) as R0.
    assert (I : info (register_ma_derive p x) = register_derive (info p) (info x)) by apply ma_derive_info.
    destruct (r_derived_from (info x)) as [s'|] eqn:D.
    - assert (N1 : r_derived_from (info (register_ma_derive p x)) = None) by (rewrite I; exact N).
      destruct (IH _ _ _ _ _ N1 H) as (chain & F & G & R). rewrite I in F.
      eexists ((_, x) :: chain). conjs.
      + apply fo_step; [split; [exact R0|exact P]|exact Es|]. rewrite removelast_snoc, D. exact F.
      + cbn [paths map snd]. apply register_from_step. exact G.
      + eapply returned_step; [|exact R]. cbv beta. rewrite I. apply opt_or_none.
    - injection H as <- <-. eexists [(_, x)]. conjs.
      + apply fo_step; [split; [exact R0|exact P]|exact Es|]. rewrite D. constructor.
      + cbn [paths map snd]. apply register_from_step, register_from_self. now rewrite I.
      + apply returned_last. flag; [split; [reflexivity|exact Fl]|].
        intros K. rewrite K in Fl. discriminate.
  Qed.
  Lemma derive_field_chain fuel : forall p s b p' o, f_derived_from (info p) = None ->
    derive_field ix fuel p s b = Ok (p', o) -> exists chain,
      follows_fields d (f_name (info p)) (register_parts b) (Some s) chain /\
      field_from p (paths chain) p' /\
      returned (fun x => f_enumerated_values (info x) = []) field_parts p chain o.
  Proof.
    induction fuel as [|k IH]; intros p s b p' o N; cbn [derive_field]; [discriminate|].
    intros H. bnd H q Hq. destruct q as [oq n]. cbn [fst snd] in H.
    destruct (_ && _) eqn:Es; [discriminate|]. apply self_register in Es.
    bnd H x E. apply ok_or_ok in E. pose proof (ix_field_sound d ix Hix _ _ E) as P.
    change (field_parts (new_field (opt_default b oq) n)) with (register_parts (opt_default b oq) ++ [n]) in P.
    pose proof (resolves_register _ _ _ b Hq) as R0.
    assert (I : info (field_ma_derive p x) = field_derive (info p) (info x)) by apply ma_derive_info.
    destruct (f_derived_from (info x)) as [s'|] eqn:D.
    - assert (N1 : f_derived_from (info (field_ma_derive p x)) = None) by (rewrite I; exact N).
      destruct (IH _ _ _ _ _ N1 H) as (chain & F & G & R). rewrite I in F.
      eexists ((_, x) :: chain). conjs.
      + apply fo_step; [split; [exact R0|exact P]|exact Es|]. rewrite removelast_snoc, D. exact F.
      + cbn [paths map snd]. apply field_from_step. exact G.
      + eapply returned_step; [|exact R]. cbv beta. rewrite I. apply list_or_nil.
    - injection H as <- <-. eexists [(_, x)]. conjs.
      + apply fo_step; [split; [exact R0|exact P]|exact Es|]. rewrite D. constructor.
      + cbn [paths map snd]. apply field_from_step, field_from_self. now rewrite I.
      + apply returned_last. flag; [split; [reflexivity|exact Fl]|].
        intros K. rewrite K in Fl. discriminate.
  Qed.

  Lemma enum_in_fields_some rg n fs e q : enum_in_fields ix rg n fs = Some (e, q) ->
    exists f, In f fs /\ q = EnumPath (new_field rg (f_name (info f))) n /\ ix_enum ix q = Some e.
  Proof.
    induction fs as [|f fs IH]; cbn [enum_in_fields]; [discriminate|]. cbv zeta. intros H.
    destruct (ix_enum ix (EnumPath (new_field rg (f_name (info f))) n)) as [x|] eqn:E.
    - injection H; intros; subst. exists f. conjs; [now left|reflexivity|exact E].
    - destruct (IH H) as (g & I & K). exists g. split; [now right|exact K].
  Qed.
  Lemma is_name_false s o : is_name s o = false -> forall n, o = Some n -> s <> n.
  Proof. intros H n -> E. subst. cbn in H. rewrite seqb_refl in H. discriminate. Qed.
  Lemma enum_found (name : option string) s b init n x q' :
    is_name s name = false -> split "." s = init ++ [n] ->
    match pop init with
    | None => Ok (match ix_register ix (fp_register b) with
                  | Some r => enum_in_fields ix (fp_register b) n (r_fields_iter (info r))
                  | None => None
                  end)
    | Some (v, fdname) =>
        let* fdpath := if is_nil v then Ok (new_field (fp_register b) fdname)
                       else let* rq := bp_parse_vec v in
                            let block := opt_default (rg_block (fp_register b)) (fst rq) in
                            Ok (FieldPath (new_register block (snd rq)) fdname) in
        if fp_eqb fdpath b && is_name n name
        then Err (ESelfDerived KValues (fp_show b ++ "." ++ n)%string)
        else let epath := EnumPath fdpath n in
             Ok (option_map (fun d => (d, epath)) (ix_enum ix epath))
    end = Ok (Some (x, q')) ->
    resolves_values d (field_parts b) s (enum_parts q') /\ ix_enum ix q' = Some x /\
    ~ exists m, name = Some m /\ (s = m \/ enum_parts q' = field_parts b ++ [m]).
  Proof.
    intros Es Ep Ef. pose proof (is_name_false _ _ Es) as Hs.
    assert (C : cut "." s (init ++ [n])) by (apply cut_split; symmetry; exact Ep).
    destruct (pop init) as [[v fd]|] eqn:Ei.
    - apply pop_spec in Ei as ->.
      assert (Kf : exists fq, Ok q' = Ok (EnumPath fq n) :> res enum_path /\ ix_enum ix (EnumPath fq n) = Some x /\
               fp_eqb fq b && is_name n (name) = false /\
               (if is_nil v then fq = new_field (fp_register b) fd else
                  exists o r, v = optional_parts block_parts o ++ [r] /\
                    fq = FieldPath (new_register (opt_default (rg_block (fp_register b)) o) r) fd)).
      { destruct (is_nil v) eqn:Ev.
        - cbn [bind] in Ef. destruct (fp_eqb _ _ && _) eqn:Ee; [discriminate|].
          cbv zeta in Ef; destruct (ix_enum ix _) as [y|] eqn:Ey; [|discriminate]. cbn [option_map] in Ef. injection Ef as <- <-. eauto 10.
        - bnd Ef fq Efq. bnd Efq rq Er. destruct rq as [oo r]. apply bp_parse_vec_spec in Er. cbn [fst snd] in Efq.
          injection Efq as <-. destruct (fp_eqb _ _ && _) eqn:Ee; [discriminate|].
          cbv zeta in Ef; destruct (ix_enum ix _) as [y|] eqn:Ey; [|discriminate]. cbn [option_map] in Ef. injection Ef as <- <-. eexists. conjs; eauto. }
      destruct Kf as (fq & [= ->] & Hx & Hself & Hfq). conjs; [|exact Hx|].
      + exists ((v ++ [fd]) ++ [n]). split; [exact C|]. unfold enum_parts, field_parts. cbn [ep_field ep_name].
        rewrite removelast_snoc. destruct v as [|v0 v]; cbn [is_nil] in Hfq.
        * subst fq. cbn. rewrite <- app_assoc. reflexivity.
        * destruct Hfq as (oo & r & Hv & ->). cbn [fp_register fp_name new_register].
          unfold register_parts. cbn [rg_block rg_name]. rewrite removelast_snoc.
          destruct oo as [bq|]; cbn [optional_parts opt_default] in *.
          -- unfold block_parts in Hv |- *. destruct (bp_path bq) as [|p1 l1] eqn:Eb.
             ++ cbn in Hv. injection Hv as -> ->. cbn. rewrite Eb. reflexivity.
             ++ cbn in Hv. injection Hv as -> Hv. destruct v as [|v1 v]; [discriminate|].
                cbn in Hv. injection Hv as -> Hv. cbn.
                destruct v as [|v2 v]; [destruct l1; discriminate|]. cbn. rewrite Eb. cbn. replace (l1 ++ [r]) with (v2 :: v) by exact Hv. destruct ((v ++ [fd]) ++ [n]) eqn:Z; [destruct v; discriminate|]. cbn. rewrite Z. reflexivity.
          -- cbn in Hv. injection Hv as -> ->. cbn. rewrite <- !app_assoc. reflexivity.
      + intros (m & Em & [Hm|Hm]); [exact (Hs m Em Hm)|].
        unfold enum_parts in Hm. cbn [ep_field ep_name] in Hm. apply app_inj_tail in Hm as [Hf ->].
        apply field_parts_inj in Hf as ->. rewrite (proj2 (fp_eqb_eq _ _) eq_refl), Em in Hself.
        cbn in Hself. rewrite seqb_refl in Hself. discriminate.
    - apply pop_none in Ei as ->. destruct (ix_register ix (fp_register b)) as [r|] eqn:Er; [|discriminate].
      injection Ef as Ef. apply enum_in_fields_some in Ef as (f & If & -> & Hx). conjs; [|exact Hx|].
      + exists [n]. split; [exact C|]. unfold field_parts. rewrite removelast_snoc.
        apply (ix_register_sound d ix Hix) in Er. exists r, f. conjs; [exact Er|exact If|].
        unfold enum_parts, field_parts. cbn. rewrite <- app_assoc. reflexivity.
      + intros (m & Em & [Hm|Hm]); [exact (Hs m Em Hm)|].
        unfold enum_parts in Hm. cbn [ep_field ep_name] in Hm. apply app_inj_tail in Hm as [Hf ->].
        destruct C as (_ & -> & _). exact (Hs m Em eq_refl).
  Qed.
  Lemma derive_enum_chain fuel : forall p s b p' o, evs_derived_from p = None ->
    derive_enum ix fuel p s b = Ok (p', o) -> exists chain,
      follows_values d (evs_name p) (field_parts b) (Some s) chain /\
      values_from p (paths chain) p'.
  Proof.
    induction fuel as [|k IH]; intros p s b p' o N; cbn [derive_enum]; [discriminate|].
    destruct (is_name s (evs_name p)) eqn:Es; [discriminate|].
    intros H. bnd H q Hq. bnd H found Ef. destruct found as [[x q']|]; [|discriminate].
    destruct (pop (split "." s)) as [[init n]|] eqn:Ep; [|discriminate]. injection Hq as <-. cbn [fst snd] in *.
    apply pop_spec in Ep.
    destruct (enum_found _ _ _ _ _ _ _ Es Ep Ef) as (R0 & Hx & Hself).
    pose proof (ix_enum_sound d ix Hix _ _ Hx) as P.
    destruct (evs_derived_from x) as [s'|] eqn:D.
    - apply IH in H as (chain & F & G); [|exact N].
      eexists ((_, x) :: chain). split.
      + apply fo_step; [split; [exact R0|exact P]|exact Hself|]. unfold enum_parts. rewrite removelast_snoc, D. exact F.
      + cbn [paths map snd]. apply values_from_step. exact G.
    - injection H as <- <-. eexists [(_, x)]. split.
      + apply fo_step; [split; [exact R0|exact P]|exact Hself|]. rewrite D. constructor.
      + cbn [paths map snd]. apply values_from_step, values_from_self. exact N.
  Qed.
End Chains.
