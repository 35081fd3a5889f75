(** Proofs for C57: writing with cases is arranging, then naming. *)
From Verif Require Import Base BaseFacts Num NumProofs Types Names Validate Builders Arrays Config Sort Xml Encode
  Parse SpecNum SpecArray ArrayProofs InstanceProofs IndexProofs SpecText TrimProofs SpecXml XmlFacts SpecValidate ValidateProofs
  SpecBuild BuilderProofs SpecParse ParseProofs TreeFacts SpecSort SortProofs PropSort SpecRound RoundProofs EncodeProofs SpecExpand SpecNamed.
From Coq Require Import Permutation.

Lemma styles_cased conv style : styles conv style -> forall c s, cased conv c s = style c s.
Proof.
  intros [N C] [c|] s; cbn; [|now rewrite N]. apply (replaced_unique "%S" "%s" (conv c s)); [discriminate| |apply C].
  apply replace_replaced.
Qed.

Section Named.
  Variables (m : mode) (conv : id_format -> string -> string) (style : option id_format -> string -> string) (cfg : config) (l : level).
  Hypothesis Hst : forall c s, cased conv c s = style c s.
  Lemma styled c o : option_map (cased conv c) o = option_map (style c) o.
  Proof. destruct o; cbn; [now rewrite Hst|reflexivity]. Qed.
  Ltac styled := rewrite ?styled, ?Hst, ?text_tidy by assumption.
  Notation nv := (named_value style cfg).
  Notation any f := (named_any style cfg f).

  Lemma map_both {A} (f g : A -> A) (P : A -> Prop) xs : Forall P (map g xs) -> (forall a, P (g a) -> f a = g a) -> map f xs = map g xs.
  Proof. induction xs; cbn; intros F H; [reflexivity|]. inversion F; subst. f_equal; auto. Qed.
  Lemma value_named e : value_fits l (nv e) -> w_value conv cfg e = nv e.
  Proof. intros (_ & F & _). unfold w_value, named_value in *. cbn in F. now styled. Qed.
  Lemma values_named e : values_fit l (named_values style cfg e) -> w_values conv cfg e = named_values style cfg e.
  Proof.
    intros (F & V & _). unfold w_values, named_values in *. cbn in F, V. styled. now rewrite (map_both _ _ _ _ V value_named).
  Qed.
  Lemma dai_named d : dai_fits l (named_index style cfg d) -> w_dai conv cfg d = named_index style cfg d.
  Proof. intros (F & V). unfold w_dai, named_index in *. cbn in F, V. styled. now rewrite (map_both _ _ _ _ V value_named). Qed.
  Lemma dim_named d : dim_fits l (named_dim style cfg d) -> w_dim conv cfg d = named_dim style cfg d.
  Proof.
    intros (_ & _ & _ & F & V). unfold w_dim, named_dim in *. cbn in F, V. styled. destruct (de_array_index d) as [a|]; cbn in *; [now rewrite dai_named|reflexivity].
  Qed.
  Lemma interrupt_named i : interrupt_fits (named_interrupt style cfg i) -> w_interrupt conv cfg i = named_interrupt style cfg i.
  Proof. intros (_ & F & _). unfold w_interrupt, named_interrupt in *. cbn in F. now styled. Qed.
  (** [x] is the element, [y] the arranged one. *)
  Lemma any_named {A} (name : A -> string) P (f g : A -> A) (h k : A -> A) x : any_fits l name P (any g x) ->
    (P (g (info x)) -> f (info x) = k (h (info x))) -> w_any conv cfg f x = any k (on_info h x).
  Proof.
    destruct x as [a|a d]; cbn; intros F H; [now rewrite H|]. destruct F as (F & D & _). now rewrite H, dim_named.
  Qed.
  Lemma any_named_fits {A} (name : A -> string) P (g h k : A -> A) x : any_fits l name P (any g x) ->
    (P (g (info x)) -> P (k (h (info x)))) -> name (k (h (info x))) = name (g (info x)) -> any_fits l name P (any k (on_info h x)).
  Proof. destruct x as [a|a d]; cbn; intros F H E; [auto|]. rewrite E. intuition. Qed.
  Lemma any_named_info {A} (name : A -> string) P (g : A -> A) x : any_fits l name P (any g x) -> P (g (info x)).
  Proof. destruct x; cbn; intuition. Qed.

  Lemma field_named f : any_fits l f_name (field_fits l) (any (named_field style cfg) f) ->
    w_any conv cfg (w_field conv cfg) f = any (named_field style cfg) (field_as cfg f).
  Proof.
    intros F. unfold field_as. eapply any_named; [exact F|].
    intros (_ & D & _ & _ & V & _). unfold w_field, named_field, with_bits, w_bits, opt_default in *. cbn in *. styled.
    rewrite (map_both _ _ _ _ V values_named). now destruct (cfg_field_bit_range cfg).
  Qed.
  Lemma field_named_fits f : any_fits l f_name (field_fits l) (any (named_field style cfg) f) -> spans cfg (info f) ->
    any_fits l f_name (field_fits l) (any (named_field style cfg) (field_as cfg f)).
  Proof.
    intros F S. eapply any_named_fits; [exact F| |reflexivity]. intros (F1 & F2 & (B1 & B2 & B3) & F4 & F5 & F6).
    split; [exact F1|]. split; [exact F2|]. split; [|split; [exact F4|split; [exact F5|exact F6]]].
    split; [exact B1|split; [exact B2|]]. cbn [named_field with_bits f_bit_range br_type br_width br_offset].
    destruct (cfg_field_bit_range cfg) as [t|] eqn:E; [|exact B3]. intros T. exact (S t E T).
  Qed.
  Lemma forall_mapped {A B} (g : A -> B) (P : B -> Prop) v s : Permutation v s -> Forall P (map g v) -> forall a, In a s -> P (g a).
  Proof. intros Q F a I. rewrite Forall_forall in F. apply F, in_map. eapply Permutation_in; [apply Permutation_sym; exact Q|exact I]. Qed.
  Lemma fields_named r fs : register_fits l (named_register style cfg r) -> (forall f, in_register r (EField f) -> spans cfg f) ->
    w_fields m conv cfg r = Ok fs ->
    exists gs, fields_like cfg (r_fields r) gs /\ fs = option_map (map (any (named_field style cfg))) gs /\
      opt_all (fun fs => fs <> [] /\ Forall (any_fits l f_name (field_fits l)) fs) fs.
  Proof.
    intros (_ & _ & _ & _ & _ & _ & _ & _ & F & _) S W. unfold w_fields in W. cbn [named_register r_fields] in F.
    destruct (r_fields r) as [v|] eqn:E; [|injection W as <-; exists None; repeat split; constructor].
    apply bind_ok in W as (s & Ws & W). cbn [option_map opt_all] in F. destruct F as [Fn F].
    pose proof (arranged_fields _ _ _ _ Ws) as A. pose proof A as [P O]. pose proof (forall_mapped _ _ _ _ P F) as Fs.
    assert (Z : map (w_any conv cfg (w_field conv cfg)) s = map (any (named_field style cfg)) (map (field_as cfg) s)).
    { rewrite map_map. apply map_ext_in. intros f I. apply field_named. auto. }
    rewrite Z in W. destruct s as [|f0 s]; [apply Permutation_sym, Permutation_nil in P; subst; now destruct Fn|].
    cbn [tidy_list map] in W. injection W as <-. exists (Some (map (field_as cfg) (f0 :: s))).
    split; [constructor; exact A|]. split; [reflexivity|]. split; [discriminate|].
    change (Forall (any_fits l f_name (field_fits l)) (map (any (named_field style cfg)) (map (field_as cfg) (f0 :: s)))).
    rewrite map_map, Forall_forall. intros f I. apply in_map_iff in I as (g & <- & I). apply field_named_fits; [now apply Fs|].
    apply S. apply ir_field with v g; [exact E| |apply if_self]. eapply Permutation_in; [apply Permutation_sym; exact P|exact I].
  Qed.
  Lemma rc_named rc : forall rc', rc_fits l (named_child style cfg rc) -> (forall f, in_rc rc (EField f) -> spans cfg f) ->
    w_rc m conv cfg rc = Ok rc' -> exists x, rc_like cfg rc x /\ rc' = named_child style cfg x /\ rc_fits l rc'.
  Proof.
    induction rc as [r|c IH] using rc_tree_ind; intros rc' F S W; cbn [w_rc named_child] in W, F.
    - apply bind_ok in W as (fs & Wf & W). injection W as <-. inversion F as [r0 Fr|]; subst.
      destruct (fields_named (info r) fs) as (gs & L & -> & X); auto; [now apply any_named_info in Fr|intros f I; apply S; now constructor|].
      exists (RCRegister (on_info (fun i => with_fields i gs) r)). split; [now constructor|]. cbn [named_child].
      rewrite (any_named r_name (register_fits l) _ (named_register style cfg) (fun i => with_fields i gs) (named_register style cfg)); auto.
      + split; [reflexivity|]. constructor. eapply any_named_fits; [exact Fr| |reflexivity].
        intros Q. apply (with_fields_fits l (named_register style cfg (info r))); assumption.
      + intros (_ & D1 & D2 & D3 & D4 & _). unfold w_register, named_register, with_fields in *. cbn in *. now styled.
    - apply bind_ok in W as (rcs & Wk & W). injection W as <-. inversion F as [|c0 Fc Fk]; subst.
      assert (Fk' : Forall (rc_fits l) (map (named_child style cfg) (c_children (info c)))) by (destruct c; exact Fk).
      assert (G : exists xs, Forall2 (rc_like cfg) (c_children (info c)) xs /\ rcs = map (named_child style cfg) xs /\ Forall (rc_fits l) rcs).
      { apply mapM_ok in Wk.
        assert (S' : forall rc f, In rc (c_children (info c)) -> in_rc rc (EField f) -> spans cfg f).
        { intros rc f I X. apply S. now apply ic_child with rc. }
        clear Fc F S Fk. revert Fk' IH S'. induction Wk as [|a b xs ys E W IHW]; intros Fk IH S'; [exists []; repeat split; constructor|].
        cbn [map] in Fk. inversion Fk as [|? ? Fa Fks]; inversion IH as [|? ? IHa IHs]; subst. destruct (IHW Fks IHs) as (zs & X & -> & Y); [intros rc f I; apply S'; now right|].
        destruct (IHa b Fa) as (z & P & -> & Q); [intros f I; apply (S' a f); [now left|exact I]|exact E|].
        exists (z :: zs). repeat split; constructor; auto. }
      destruct G as (xs & G1 & -> & G2).
      exists (RCCluster (on_info (fun i => with_children i xs) c)). split; [now constructor|].
      assert (E : named_child style cfg (RCCluster (on_info (fun i => with_children i xs) c)) =
        RCCluster (any (named_cluster style cfg (map (named_child style cfg) xs)) (on_info (fun i => with_children i xs) c))) by now destruct c.
      rewrite E. clear E.
      rewrite (any_named c_name (cluster_fits l) _ (named_cluster style cfg (map (named_child style cfg) (c_children (info c))))
        (fun i => with_children i xs) (named_cluster style cfg (map (named_child style cfg) xs))); auto.
      + split; [reflexivity|]. constructor; [|destruct c; exact G2]. eapply any_named_fits; [exact Fc| |reflexivity].
        intros (F1 & F2 & F3 & F4 & F5 & F6 & F7). unfold cluster_fits. conjs; auto.
        intros L. destruct (F7 L) as (A & B & C). conjs; auto. cbn. intros D Z. apply (C D). cbn.
        apply map_eq_nil in Z. subst xs. inversion G1. now destruct (c_children (info c)).
      + intros (_ & D1 & D2 & D3 & _). unfold w_cluster, named_cluster, with_children in *. cbn in *. now styled.
  Qed.
  Lemma registers_named p rs : opt_all (Forall (rc_fits l)) (option_map (map (named_child style cfg)) (p_registers p)) ->
    (forall f, in_peripheral p (EField f) -> spans cfg f) -> w_registers m conv cfg p = Ok rs ->
    exists xs, registers_like cfg (p_registers p) xs /\ rs = option_map (map (named_child style cfg)) xs /\
      opt_all (Forall (rc_fits l)) rs /\ (rs = Some [] -> p_registers p = Some []).
  Proof.
    intros F S W. unfold w_registers in W.
    destruct (p_registers p) as [v|] eqn:E; [|injection W as <-; exists None; repeat split; (constructor || discriminate)].
    apply bind_ok in W as (s & Ws & W). apply bind_ok in W as (rcs & Wr & W). injection W as <-.
    pose proof (arranged_registers _ _ _ _ Ws) as A. pose proof A as [P _]. cbn [option_map opt_all] in F. pose proof (forall_mapped _ _ _ _ P F) as Fs.
    assert (G : exists xs, Forall2 (rc_like cfg) s xs /\ rcs = map (named_child style cfg) xs /\ Forall (rc_fits l) rcs).
    { apply mapM_ok in Wr. assert (I0 : forall a, In a s -> In a v) by (intros a I; eapply Permutation_in; [apply Permutation_sym; exact P|exact I]).
      clear A P Ws F. induction Wr as [|a b xs ys Ea W IHW]; [exists []; repeat split; constructor|].
      destruct IHW as (zs & X & -> & Y); [intros; apply Fs; now right|intros; apply I0; now right|].
      destruct (rc_named a b) as (z & U & -> & V); [apply Fs; now left| |exact Ea|].
      - intros f I. apply S. apply ip_child with v a; auto. apply I0. now left.
      - exists (z :: zs). repeat split; constructor; auto. }
    destruct G as (xs & G1 & -> & G2). exists (Some xs).
    conjs; [now apply gl_some with s|reflexivity|exact G2|]. intros Z. injection Z as Z. apply map_eq_nil in Z. subst xs. inversion G1; subst.
    apply Permutation_sym, Permutation_nil in P. now subst.
  Qed.
  Lemma peripheral_named p p' : any_fits l p_name (peripheral_fits l) (any (named_peripheral style cfg) p) -> (forall f, in_peripheral (info p) (EField f) -> spans cfg f) ->
    w_peripheral_any m conv cfg p = Ok p' ->
    exists x, peripheral_like cfg p x /\ p' = any (named_peripheral style cfg) x /\ any_fits l p_name (peripheral_fits l) p'.
  Proof.
    intros F S W. unfold w_peripheral_any in W. apply bind_ok in W as (rs & W & E). injection E as <-.
    pose proof (any_named_info _ _ _ _ F) as (F1 & F2 & F3 & F4 & F5 & F6 & F7 & F8 & F9 & F10 & F11 & F12 & F13 & F14 & F15).
    destruct (registers_named (info p) rs F14 S W) as (xs & L & -> & X & Z).
    exists (on_info (fun i => with_registers i xs) p). split; [now constructor|].
    rewrite (any_named p_name (peripheral_fits l) _ (named_peripheral style cfg) (fun i => with_registers i xs) (named_peripheral style cfg)); auto.
    - split; [reflexivity|]. eapply any_named_fits; [exact F| |reflexivity]. intros _. unfold peripheral_fits. conjs; auto.
      intros K. destruct (F15 K) as (A & B & C). conjs; auto. cbn. intros D R. apply (C D). cbn. now rewrite (Z R).
    - intros _. unfold w_peripheral, named_peripheral, with_registers in *. cbn in *. styled. rewrite (map_both _ _ _ _ F13 interrupt_named).
      replace (tidy_list (p_address_block (info p))) with (p_address_block (info p)); [reflexivity|].
      destruct (p_address_block (info p)) as [[|b bs]|]; auto. now destruct F12 as [[] _].
  Qed.
  Theorem device_named d d' : device_fits l (named_device style cfg d) -> (forall f, in_device d (EField f) -> spans cfg f) ->
    w_device m conv cfg d = Ok d' -> exists x, device_like cfg d x /\ d' = named_device style cfg x /\ device_fits l d'.
  Proof.
    intros (F1 & F2 & F3 & F4 & F5 & F6 & F7 & F8 & F9 & F10 & F11 & F12 & F13 & F14 & F15) S W. unfold w_device in W.
    apply bind_ok in W as (s & Ws & W). apply bind_ok in W as (ps & Wp & W). injection W as <-.
    pose proof (arranged_peripherals _ _ _ _ Ws) as A. pose proof A as [P _]. cbn [named_device with_peripherals d_peripherals] in F14.
    pose proof (forall_mapped _ _ _ _ P F14) as Fs.
    assert (G : exists xs, Forall2 (peripheral_like cfg) s xs /\ ps = map (any (named_peripheral style cfg)) xs /\ Forall (any_fits l p_name (peripheral_fits l)) ps).
    { apply mapM_ok in Wp. assert (I0 : forall a, In a s -> In a (d_peripherals d)) by (intros a I; eapply Permutation_in; [apply Permutation_sym; exact P|exact I]).
      clear A P Ws. induction Wp as [|a b xs ys Ea W IHW]; [exists []; repeat split; constructor|].
      destruct IHW as (zs & X & -> & Y); [intros; apply Fs; now right|intros; apply I0; now right|].
      destruct (peripheral_named a b) as (z & U & -> & V); [apply Fs; now left| |exact Ea|].
      - intros f I. apply S. apply id_peripheral with a; auto. apply I0. now left.
      - exists (z :: zs). repeat split; constructor; auto. }
    destruct G as (xs & G1 & -> & G2). exists (with_peripherals d xs). split; [exists s, xs; auto|].
    cbn [named_device with_peripherals d_vendor d_vendor_id d_series d_license_text d_header_system_filename d_header_definitions_prefix] in *.
    styled. split; [reflexivity|]. unfold device_fits. cbn [d_vendor d_vendor_id d_name d_series d_version d_description d_license_text d_cpu d_header_system_filename
        d_header_definitions_prefix d_address_unit_bits d_width d_default_properties d_peripherals]. conjs; auto.
    intros C. specialize (F15 C). cbn [d_peripherals]. intros Z. apply map_eq_nil in Z. subst xs. inversion G1; subst.
    apply Permutation_sym, Permutation_nil in P. apply F15. cbn. now rewrite P.
  Qed.
End Named.

(** ** References among siblings *)
Section Siblings.
  Variables (style : option id_format -> string -> string) (cfg : config) (d : device).
  Notation any f := (named_any style cfg f).
  Notation d' := (named_device style cfg d).
  Lemma info_any {A} (f : A -> A) x : info (any f x) = f (info x). Proof. now destruct x. Qed.
  Lemma block_named path path' kids : block_at style cfg d path path' kids ->
    children_placed d' path' (map (named_child style cfg) kids).
  Proof.
    induction 1 as [p I|path path' kids c B IH I].
    - replace (map (named_child style cfg) (or_empty (p_registers (info p))))
        with (or_empty (p_registers (info (any (named_peripheral style cfg) p)))) by (rewrite info_any; cbn; now destruct (p_registers (info p))).
      constructor. exists (style (cfg_peripheral_name cfg) (p_name (info p))). split; [reflexivity|].
      split; [|left; now rewrite info_any]. cbn. now apply List.in_map.
    - set (c' := any (named_cluster style cfg (map (named_child style cfg) (c_children (info c)))) c).
      replace (map (named_child style cfg) (c_children (info c))) with (c_children (info c')) by (unfold c'; now destruct c).
      apply cp_cluster with (map (named_child style cfg) kids); [exact IH| |left; unfold c'; now destruct c].
      apply (List.in_map (named_child style cfg)) in I. exact I.
  Qed.
  Section Chain.
    Context {A : Type}.
    Variables (name : A -> string) (ref : A -> option string) (kid : maybe_array A -> Prop) (f : maybe_array A -> maybe_array A)
      (c : option id_format) (self : list string -> string -> list string -> Prop)
      (step : list string -> string -> list string -> maybe_array A -> Prop) (ctx : list string).
    Hypothesis Href : forall x, ref (info (f x)) = option_map (style c) (ref (info x)).
    Variable chain0 : list (maybe_array A).
    Hypothesis Hstep : forall x, In x chain0 -> kid x -> step ctx (style c (name (info x))) (ctx ++ [style c (name (info x))]) (f x).
    Hypothesis Hself : forall x, In x chain0 -> ~ self ctx (style c (name (info x))) (ctx ++ [style c (name (info x))]).
    Lemma follows_named s chain : siblings name ref kid s chain -> (forall x, In x chain -> In x chain0) ->
      follows (fun x => ref (info x)) self step ctx (Some (style c s)) (map (fun x => (ctx ++ [style c (name (info x))], f x)) chain).
    Proof.
      induction 1 as [x K N|x s chain K N S IH]; intros I; cbn [map].
      - constructor; [apply Hstep; [apply I; now left|exact K]|apply Hself, I; now left|]. rewrite Href, N. constructor.
      - constructor; [apply Hstep; [apply I; now left|exact K]|apply Hself, I; now left|]. rewrite Href, N, removelast_last. apply IH. intros; apply I; now right.
    Qed.
  End Chain.
  Lemma plain_resolves ctx s : free_of "." s -> resolves ctx s (ctx ++ [s]).
  Proof.
    intros F. exists [s]. split; [|left; exists s; auto]. split; [discriminate|]. split; [reflexivity|]. now constructor.
  Qed.
  Lemma peripherals_referred name s chain : siblings p_name p_derived_from (fun p => In p (d_peripherals d)) s chain ->
    keeps_apart style (cfg_peripheral_name cfg) name (map (fun p => p_name (info p)) chain) ->
    follows_peripherals d' (style (cfg_peripheral_name cfg) name) [] (Some (style (cfg_peripheral_name cfg) s))
      (map (fun p => ([style (cfg_peripheral_name cfg) (p_name (info p))], any (named_peripheral style cfg) p)) chain).
  Proof.
    intros S K. apply (follows_named p_name p_derived_from (fun p => In p (d_peripherals d)) (any (named_peripheral style cfg))
      (cfg_peripheral_name cfg) _ _ [] ltac:(intros; now rewrite info_any) chain); auto.
    - intros x _ I. split; [reflexivity|]. eexists. split; [reflexivity|]. split; [cbn; now apply List.in_map|left; now rewrite info_any].
    - intros x I E. apply (K (p_name (info x))); [|exact E]. apply in_map_iff. eauto.
  Qed.
  Lemma not_self (ctx : list string) a b : a <> b -> ctx ++ [a] <> ctx ++ [b].
  Proof. intros N E. apply app_inv_head in E. congruence. Qed.
  Lemma registers_referred path path' kids name s chain : block_at style cfg d path path' kids ->
    siblings r_name r_derived_from (fun r => In (RCRegister r) kids) s chain ->
    keeps_apart style (cfg_register_name cfg) name (map (fun p => r_name (info p)) chain) ->
    makes_no_dots style (cfg_register_name cfg) (map (fun p => r_name (info p)) chain) ->
    follows_registers d' (style (cfg_register_name cfg) name) path' (Some (style (cfg_register_name cfg) s))
      (map (fun r => (path' ++ [style (cfg_register_name cfg) (r_name (info r))], any (named_register style cfg) r)) chain).
  Proof.
    intros B S K D. apply (follows_named r_name r_derived_from (fun r => In (RCRegister r) kids) (any (named_register style cfg))
      (cfg_register_name cfg) _ _ path' ltac:(intros; now rewrite info_any) chain); auto.
    - intros x I J. split; [apply plain_resolves, D, in_map_iff; eauto|]. eexists _, _, _. split; [reflexivity|].
      split; [exact (block_named _ _ _ B)|]. split; [|left; now rewrite info_any]. apply (List.in_map (named_child style cfg)) in J. exact J.
    - intros x I. apply not_self. apply K, in_map_iff. eauto.
  Qed.
  Lemma clusters_referred path path' kids name s chain : block_at style cfg d path path' kids ->
    siblings c_name c_derived_from (fun c => In (RCCluster c) kids) s chain ->
    keeps_apart style (cfg_cluster_name cfg) name (map (fun c : cluster => c_name (info c)) chain) ->
    makes_no_dots style (cfg_cluster_name cfg) (map (fun c : cluster => c_name (info c)) chain) ->
    follows_clusters d' (style (cfg_cluster_name cfg) name) path' (Some (style (cfg_cluster_name cfg) s))
      (map (fun c : cluster => (path' ++ [style (cfg_cluster_name cfg) (c_name (info c))],
        any (named_cluster style cfg (map (named_child style cfg) (c_children (info c)))) c)) chain).
  Proof.
    intros B S K D.
    apply (follows_named c_name c_derived_from (fun c => In (RCCluster c) kids)
      (fun c : cluster => any (named_cluster style cfg (map (named_child style cfg) (c_children (info c)))) c)
      (cfg_cluster_name cfg) _ _ path' ltac:(intros x; now destruct x) chain); auto.
    - intros x I J. split; [apply plain_resolves, D, in_map_iff; eauto|]. eexists _, _, _. split; [reflexivity|].
      split; [exact (block_named _ _ _ B)|]. split; [|left; now destruct x]. apply (List.in_map (named_child style cfg)) in J. exact J.
    - intros x I. apply not_self. apply K, in_map_iff. eauto.
  Qed.
  Lemma fields_referred path path' kids r name s chain : block_at style cfg d path path' kids -> In (RCRegister r) kids ->
    siblings f_name f_derived_from (fun f => In f (or_empty (r_fields (info r)))) s chain ->
    keeps_apart style (cfg_field_name cfg) name (map (fun p => f_name (info p)) chain) ->
    makes_no_dots style (cfg_field_name cfg) (map (fun p => f_name (info p)) chain) ->
    let ctx := path' ++ [style (cfg_register_name cfg) (r_name (info r))] in
    follows_fields d' (style (cfg_field_name cfg) name) ctx (Some (style (cfg_field_name cfg) s))
      (map (fun f => (ctx ++ [style (cfg_field_name cfg) (f_name (info f))], any (named_field style cfg) f)) chain).
  Proof.
    intros B R S K D ctx. apply (follows_named f_name f_derived_from (fun f => In f (or_empty (r_fields (info r)))) (any (named_field style cfg))
      (cfg_field_name cfg) _ _ ctx ltac:(intros; now rewrite info_any) chain); auto.
    - intros x I J. split; [apply plain_resolves, D, in_map_iff; eauto|]. exists ctx. eexists _, (any (named_register style cfg) r). split; [reflexivity|].
      split; [|split; [|left; now rewrite info_any]].
      + eexists _, _, _. split; [reflexivity|]. split; [exact (block_named _ _ _ B)|]. split; [|left; now rewrite info_any].
        apply (List.in_map (named_child style cfg)) in R. exact R.
      + rewrite info_any. cbn. destruct (r_fields (info r)); [|destruct J]. cbn in *. now apply List.in_map.
    - intros x I. apply not_self. apply K, in_map_iff. eauto.
  Qed.
End Siblings.
