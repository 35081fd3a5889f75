(** A cluster is short for what it contains, with its name before theirs and its address added to theirs. *)
From Verif Require Import Base BaseFacts TreeFacts Types Arrays Expand SpecArray SpecExpand SpecFlat SpecWritten SpecOpen ArrayProofs InstanceProofs EndProofs ExpandProofs MeaningProofs WrittenProofs CompleteProofs.

(** ** Results that agree if there are any *)
Definition agree {A} (a b : res A) : Prop := forall x, a = Ok x <-> b = Ok x.
Lemma agree_refl {A} (a : res A) : agree a a. Proof. intros x. reflexivity. Qed.
Lemma agree_trans {A} (a b c : res A) : agree a b -> agree b c -> agree a c.
Proof. intros H K x. rewrite (H x). apply K. Qed.
Lemma agree_sym {A} (a b : res A) : agree a b -> agree b a.
Proof. intros H x. now rewrite (H x). Qed.
Lemma agree_bind {A B} (a b : res A) (f g : A -> res B) : agree a b -> (forall x, agree (f x) (g x)) -> agree (bind a f) (bind b g).
Proof.
  intros H K y. split; intros E; apply bind_ok in E as (x & X & E).
  - apply H in X. rewrite X. cbn [bind]. now apply K.
  - apply H in X. rewrite X. cbn [bind]. now apply K.
Qed.
Lemma agree_mapM {A B} (f g : A -> res B) l : (forall x, In x l -> agree (f x) (g x)) -> agree (mapM f l) (mapM g l).
Proof.
  induction l as [|a l IH]; intros H; [apply agree_refl|]. cbn [mapM]. apply agree_bind; [apply H; now left|]. intros x.
  apply agree_bind; [apply IH; intros; apply H; now right|]. intros. apply agree_refl.
Qed.
Lemma agree_concatM {A B} (f g : A -> res (list B)) l : (forall x, In x l -> agree (f x) (g x)) -> agree (concatM f l) (concatM g l).
Proof.
  induction l as [|a l IH]; intros H; [apply agree_refl|]. cbn [concatM]. apply agree_bind; [apply H; now left|]. intros x.
  apply agree_bind; [apply IH; intros; apply H; now right|]. intros. apply agree_refl.
Qed.
Lemma mapM_mapM {A B C} (f : A -> res B) (g : B -> res C) l : agree (let* y := mapM f l in mapM g y) (mapM (fun a => let* y := f a in g y) l).
Proof.
  induction l as [|a l IH]; [apply agree_refl|]. cbn [mapM]. intros z. specialize (IH). split; intros E.
  - apply bind_ok in E as (ys & E1 & E). apply bind_ok in E1 as (y & Ey & E1). apply bind_ok in E1 as (ys' & Ey' & E1). injection E1 as <-.
    cbn [mapM] in E. apply bind_ok in E as (w & Ew & E). apply bind_ok in E as (ws & Ews & E). rewrite Ey. cbn [bind]. rewrite Ew. cbn [bind].
    assert (K : mapM (fun a => let* y := f a in g y) l = Ok ws) by (apply IH; rewrite Ey'; exact Ews). rewrite K. exact E.
  - apply bind_ok in E as (w & Ew & E). apply bind_ok in Ew as (y & Ey & Ew). apply bind_ok in E as (ws & Ews & E). apply IH in Ews.
    apply bind_ok in Ews as (ys & Eys & Ews). rewrite Ey. cbn [bind]. rewrite Eys. cbn [bind mapM]. rewrite Ew. cbn [bind]. rewrite Ews. exact E.
Qed.
Lemma concatM_mapM {A B C} (f : A -> res (list B)) (g : B -> res C) l :
  agree (let* y := concatM f l in mapM g y) (concatM (fun a => let* y := f a in mapM g y) l).
Proof.
  induction l as [|a l IH]; [apply agree_refl|]. cbn [concatM]. intros z. split; intros E.
  - apply bind_ok in E as (ys & E1 & E). apply bind_ok in E1 as (y & Ey & E1). apply bind_ok in E1 as (ys' & Ey' & E1). injection E1 as <-.
    rewrite mapM_app in E. apply bind_ok in E as (w & Ew & E). apply bind_ok in E as (ws & Ews & E). rewrite Ey. cbn [bind]. rewrite Ew. cbn [bind].
    assert (K : concatM (fun a => let* y := f a in mapM g y) l = Ok ws) by (apply IH; rewrite Ey'; exact Ews). rewrite K. exact E.
  - apply bind_ok in E as (w & Ew & E). apply bind_ok in Ew as (y & Ey & Ew). apply bind_ok in E as (ws & Ews & E). apply IH in Ews.
    apply bind_ok in Ews as (ys & Eys & Ews). rewrite Ey. cbn [bind]. rewrite Eys. cbn [bind]. rewrite mapM_app, Ew. cbn [bind]. rewrite Ews. exact E.
Qed.

(** ** Sums and names *)
Lemma add_add m r x c : x + c < pow32 -> agree (let* s := add32 m r x in add32 m s c) (add32 m r (x + c)).
Proof.
  intros L. unfold add32, add_w. assert (P : pow32 <> 0) by discriminate.
  destruct (r + x <? pow32) eqn:E1; cbn [bind].
  - apply N.ltb_lt in E1. rewrite N.add_assoc. apply agree_refl.
  - apply N.ltb_ge in E1. assert (E2 : r + (x + c) <? pow32 = false) by (apply N.ltb_ge; lia). rewrite E2. destruct m; cbn [bind].
    + intros y; split; discriminate.
    + destruct ((r + x) mod pow32 + c <? pow32) eqn:E3.
      * apply N.ltb_lt in E3. rewrite N.add_assoc. rewrite <- (N.add_mod_idemp_l (r + x) c) by assumption. rewrite (N.mod_small _ _ E3). apply agree_refl.
      * rewrite N.add_mod_idemp_l by assumption. rewrite N.add_assoc. apply agree_refl.
Qed.
Lemma free_bracket idx a s : free_of "%" a -> replace "[%s]" idx (a ++ "_" ++ s)%string = (a ++ "_" ++ replace "[%s]" idx s)%string.
Proof.
  induction a as [|x a IH]; intros H; [reflexivity|]. rewrite free_of_cons in H. destruct H as [Hx H].
  cbn [append]. rewrite replace_skip; [f_equal; now apply IH|].
  apply starts_with_false. intros t E. cbn in E. injection E as _ E. destruct a as [|y a]; cbn in E; [discriminate|].
  rewrite free_of_cons in H. destruct H as [Hy _]. injection E as E _. congruence.
Qed.
Lemma prefix_name d n t idx : free_of "%" n -> de_array_index d = None -> instance_name d (n ++ "_" ++ t)%string idx = (n ++ "_" ++ instance_name d t idx)%string.
Proof.
  intros F E. unfold instance_name, dai_find. rewrite E. unfold subst_index. rewrite (free_bracket idx n t F).
  rewrite (replace_free "%" "s" idx n _ F). f_equal.
Qed.
Lemma offset_plain m base d k : base + k * de_increment d < pow32 -> offset_at m base d k = Ok (base + k * de_increment d).
Proof.
  intros L. unfold offset_at, mul32, mul_w, add32, add_w. assert (E : k * de_increment d <? pow32 = true) by (apply N.ltb_lt; lia).
  rewrite E. cbn [bind]. assert (E2 : base + k * de_increment d <? pow32 = true) by now apply N.ltb_lt. now rewrite E2.
Qed.

Section Open.
  Variable m : mode.
  Definition hoist (n : string) (c : N) (rc : register_cluster) : res register_cluster :=
    match rc with
    | RCCluster _ => Panic Unreachable
    | RCRegister r =>
        let* off := add32 m (r_address_offset (info r)) c in
        Ok (RCRegister (ma_map (fun i => r_move i (n ++ "_" ++ r_name i)%string off) r))
    end.
  Lemma hoist_children i : expand_cluster m i = mapM (hoist (c_name i) (c_address_offset i)) (c_children i).
  Proof. reflexivity. Qed.
  Lemma add_plain a b : a + b < pow32 -> add32 m a b = Ok (a + b).
  Proof. intros L. unfold add32, add_w. apply N.ltb_lt in L. now rewrite L. Qed.
  Lemma hoist_hoist n n1 x c rc : x + c < pow32 ->
    agree (let* y := hoist n1 x rc in hoist n c y) (hoist (n ++ "_" ++ n1) (x + c) rc).
  Proof.
    intros L. destruct rc as [r|k]; [|cbn; intros z; split; discriminate]. cbn [hoist]. intros z. split; intros E.
    - apply bind_ok in E as (y & Y & E). apply bind_ok in Y as (s & Hs & Y). injection Y as <-. cbn [hoist] in E.
      apply bind_ok in E as (t & T & E). replace (r_address_offset (info (ma_map _ r))) with s in T by now destruct r.
      assert (K : add32 m (r_address_offset (info r)) (x + c) = Ok t) by (apply (add_add m _ x c L); rewrite Hs; exact T).
      rewrite K. cbn [bind]. rewrite <- E. f_equal. destruct r; cbn; unfold r_move, r_with; cbn; repeat rewrite sapp_assoc; reflexivity.
    - apply bind_ok in E as (t & T & E). apply (add_add m _ x c L) in T. apply bind_ok in T as (s & Hs & T). rewrite Hs. cbn [bind hoist].
      replace (r_address_offset (info (ma_map _ r))) with s by now destruct r. rewrite T. cbn [bind]. rewrite <- E. f_equal.
      destruct r; cbn; unfold r_move, r_with; cbn; repeat rewrite sapp_assoc; reflexivity.
  Qed.
  Lemma hoists_hoists n n1 x c l : x + c < pow32 ->
    agree (let* y := mapM (hoist n1 x) l in mapM (hoist n c) y) (mapM (hoist (n ++ "_" ++ n1) (x + c)) l).
  Proof. intros L. eapply agree_trans; [apply mapM_mapM|]. apply agree_mapM. intros rc _. now apply hoist_hoist. Qed.

  (** ** Nothing but the tree matters where nothing is derived *)
  Lemma fields_path ix ix' fuel fuel' rp rp' o : Forall underived_field (or_empty o) -> fields_done m ix fuel rp o = fields_done m ix' fuel' rp' o.
  Proof.
    destruct o as [fs|]; [|reflexivity]. cbn [or_empty fields_done]. intros U. f_equal. induction U as [|f fs Uf U IH]; [reflexivity|].
    cbn [concatM]. rewrite !(field_plain m _ _ _ _ Uf), IH. reflexivity.
  Qed.
  Lemma rc_path ix ix' fuel : forall b b' rc, underived_child rc -> expand_rc m ix fuel b rc = expand_rc m ix' fuel b' rc.
  Proof.
    induction fuel as [|k IH]; intros b b' rc U; [reflexivity|]. destruct U as [r D U|c D U]; cbn [expand_rc].
    - rewrite !(register_plain _ _ _ _ _ D). now rewrite (fields_path ix ix' k k _ (new_register b' (r_name (info r))) _ U).
    - unfold cluster_info, cluster in *. rewrite D. cbn [bind fst snd opt_default]. f_equal.
      induction U as [|x l Ux U IHl]; [reflexivity|]. cbn [concatM]. rewrite (IH _ (new_cluster b' (c_name (info c))) x Ux), IHl. reflexivity.
  Qed.
  Lemma rcs_path ix ix' fuel b b' l : Forall underived_child l -> concatM (expand_rc m ix fuel b) l = concatM (expand_rc m ix' fuel b') l.
  Proof. induction 1 as [|x l Ux U IH]; [reflexivity|]. cbn [concatM]. now rewrite (rc_path ix ix' fuel b b' x Ux), IH. Qed.
  (** ** A child put beside the cluster *)
  Lemma mapM_then {A B C} (f : A -> res B) (h : B -> C) l : agree (let* y := mapM f l in Ok (map h y)) (mapM (fun a => let* y := f a in Ok (h y)) l).
  Proof.
    eapply agree_trans; [|apply mapM_mapM]. apply agree_bind; [apply agree_refl|]. intros x. rewrite mapM_pure. apply agree_refl.
  Qed.
  Lemma register_beside ix ix' fuel b b' n c r : r_derived_from (info r) = None -> Forall underived_field (or_empty (r_fields (info r))) ->
    movable n r (r_address_offset (info r) + c) ->
    agree (let* l := expand_register_array m ix fuel b r in mapM (hoist n c) l)
      (expand_register_array m ix' fuel b' (mapped (fun i => register_moved i (n ++ "_" ++ r_name i)%string (r_address_offset i + c)) r)).
  Proof.
    intros D U M. rewrite (register_plain _ _ _ _ _ D). rewrite register_plain; [|destruct r; exact D].
    replace (r_fields (info (mapped (fun i => register_moved i (n ++ "_" ++ r_name i)%string (r_address_offset i + c)) r))) with (r_fields (info r)) by now destruct r.
    rewrite (fields_path ix ix' fuel fuel _ (new_register b' (r_name (info (mapped (fun i => register_moved i (n ++ "_" ++ r_name i)%string (r_address_offset i + c)) r)))) _ U).
    destruct (fields_done m ix' fuel _ _) as [o|e|p]; cbn [bind]; [|intros z; split; discriminate..].
    unfold movable in M. change (2 ^ 32) with pow32 in M. destruct M as [L M]. destruct r as [i|i d]; cbn [mapped bind info] in *.
    - cbn [mapM hoist info ma_map register_with r_address_offset]. rewrite (add_plain _ _ L). cbn [bind]. apply agree_refl.
    - destruct M as (F & Da & Lk). unfold register_expand.
      eapply agree_trans; [apply agree_bind; [apply mapM_then|intros; apply agree_refl]|]. eapply agree_trans; [apply mapM_mapM|].
      eapply agree_trans; [|apply agree_sym, mapM_then]. apply agree_mapM. intros k Hk. apply in_upto in Hk. specialize (Lk k Hk).
      unfold register_instance. destruct (index_at d k) as [idx|e|q]; cbn [bind]; [|intros z; split; discriminate..].
      cbn [register_with register_moved r_address_offset r_name r_display_name r_description r_alternate_group r_alternate_register r_properties r_datatype r_mwv r_write_constraint r_read_action r_fields r_derived_from].
      assert (Lk' : r_address_offset i + k * de_increment d < pow32) by (revert Lk; generalize (k * de_increment d), (r_address_offset i), pow32; clear; intros; lia).
      rewrite (offset_plain m (r_address_offset i + c) d k Lk), (offset_plain m (r_address_offset i) d k Lk'). cbn [bind hoist info ma_map r_address_offset].
      rewrite add_plain by (revert Lk; generalize (k * de_increment d), (r_address_offset i), pow32; clear; intros; lia). cbn [bind]. unfold r_move, r_with.
      cbn [r_name r_display_name r_description r_alternate_group r_alternate_register r_properties r_datatype r_mwv r_write_constraint r_read_action r_fields r_derived_from].
      rewrite (prefix_name d n (r_name i) idx F Da). replace (r_address_offset i + k * de_increment d + c) with (r_address_offset i + c + k * de_increment d) by (clear; lia).
      apply agree_refl.
  Qed.
  Lemma cluster_beside ix ix' fuel b b' n c0 (c : cluster) : underived_child (RCCluster c) ->
    movable n c (c_address_offset (info c) + c0) ->
    agree (let* l := expand_rc m ix fuel b (RCCluster c) in mapM (hoist n c0) l)
      (expand_rc m ix' fuel b' (RCCluster (mapped (fun i => cluster_moved i (n ++ "_" ++ c_name i)%string (c_address_offset i + c0)) c))).
  Proof.
    intros U M. destruct fuel as [|fuel]; [intros z; split; discriminate|]. cbn [expand_rc]. inversion U as [|c' D Us E]. subst c'.
    unfold cluster_info, cluster in *. rewrite D.
    assert (D' : c_derived_from (info (mapped (fun i : cluster_info_of register_cluster => cluster_moved i (n ++ "_" ++ c_name i)%string (c_address_offset i + c0)) c)) = None)
      by (destruct c; exact D).
    rewrite D'. cbn [bind fst snd opt_default].
    replace (c_children (info (mapped (fun i : cluster_info_of register_cluster => cluster_moved i (n ++ "_" ++ c_name i)%string (c_address_offset i + c0)) c))) with (c_children (info c)) by now destruct c.
    assert (K : forall b1 b2, concatM (expand_rc m ix fuel b1) (c_children (info c)) = concatM (expand_rc m ix' fuel b2) (c_children (info c))).
    { intros b1 b2. now apply rcs_path. }
    rewrite (K _ (new_cluster b' (c_name (info (mapped (fun i : cluster_info_of register_cluster => cluster_moved i (n ++ "_" ++ c_name i)%string (c_address_offset i + c0)) c))))).
    destruct (concatM _ (c_children (info c))) as [kids|e|q]; cbn [bind]; [|intros z; split; discriminate..].
    unfold movable in M. change (2 ^ 32) with pow32 in M. destruct M as [L M]. destruct c as [i|i d]; cbn [mapped ma_map info] in *.
    - exact (hoists_hoists n (c_name i) (c_address_offset i) c0 kids L).
    - destruct M as (F & Da & Lk). eapply agree_trans; [apply concatM_mapM|]. apply agree_concatM. intros k Hk. apply in_upto in Hk. specialize (Lk k Hk).
      unfold cluster_instance. destruct (index_at d k) as [idx|e|q]; cbn [bind]; [|intros z; split; discriminate..].
      cbn [c_with cluster_moved c_address_offset c_name c_children].
      assert (Lk' : c_address_offset i + k * de_increment d < pow32) by (revert Lk; generalize (k * de_increment d), (c_address_offset i), pow32; clear; intros; lia).
      rewrite (offset_plain m (c_address_offset i + c0) d k Lk), (offset_plain m (c_address_offset i) d k Lk'). cbn [bind].
      rewrite !hoist_children. cbn [c_name c_address_offset c_children].
      rewrite (prefix_name d n (c_name i) idx F Da). replace (c_address_offset i + c0 + k * de_increment d) with (c_address_offset i + k * de_increment d + c0) in * by (clear; lia).
      exact (hoists_hoists n _ _ c0 kids Lk).
  Qed.
  Lemma child_beside ix ix' fuel b b' n c rc rc' : underived_child rc -> child_moved n c rc rc' ->
    agree (let* l := expand_rc m ix fuel b rc in mapM (hoist n c) l) (expand_rc m ix' fuel b' rc').
  Proof.
    intros U M. destruct M as [r M|k M]; [|now apply cluster_beside]. destruct fuel as [|fuel]; [intros z; split; discriminate|].
    cbn [expand_rc]. inversion U; subst. now apply register_beside.
  Qed.
  Lemma children_beside ix ix' fuel b b' n c l l' : Forall underived_child l -> Forall2 (child_moved n c) l l' ->
    agree (let* l := concatM (expand_rc m ix fuel b) l in mapM (hoist n c) l) (concatM (expand_rc m ix' fuel b') l').
  Proof.
    intros U M. eapply agree_trans; [apply concatM_mapM|]. induction M as [|x y l l' H M IH]; [apply agree_refl|].
    inversion U; subst. cbn [concatM]. apply agree_bind; [now apply child_beside|]. intros z. apply agree_bind; [now apply IH|]. intros. apply agree_refl.
  Qed.

  (** ** Dissolving *)
  Lemma moved_underived n c rc rc' : child_moved n c rc rc' -> underived_child rc -> underived_child rc'.
  Proof. intros H U. destruct H as [r _|k _]; inversion U; subst; [destruct r|destruct k]; constructor; assumption. Qed.
  Lemma all_moved n c l l' : Forall2 (child_moved n c) l l' -> Forall underived_child l -> Forall underived_child l'.
  Proof. induction 1; intros U; inversion U; subst; constructor; eauto using moved_underived. Qed.
  Section Ind.
    Variable P : register_cluster -> list register_cluster -> Prop.
    Hypothesis Pr : forall r, P (RCRegister r) [RCRegister r].
    Hypothesis Pk : forall (c : cluster) ls, Forall2 child_dissolved (c_children (info c)) ls -> Forall2 P (c_children (info c)) ls ->
      P (RCCluster c) [RCCluster (mapped (fun i => cluster_with i (List.concat ls)) c)].
    Hypothesis Pd : forall (i : cluster_info) ls out, Forall2 child_dissolved (c_children i) ls -> Forall2 P (c_children i) ls ->
      Forall2 (child_moved (c_name i) (c_address_offset i)) (List.concat ls) out -> P (RCCluster (Single i)) out.
    Fixpoint dissolved_ind rc out (H : child_dissolved rc out) : P rc out :=
      let go := fix go l l' (F : Forall2 child_dissolved l l') : Forall2 P l l' :=
                match F with
                | Forall2_nil _ => Forall2_nil _
                | Forall2_cons _ _ h t => Forall2_cons _ _ (dissolved_ind _ _ h) (go _ _ t)
                end in
      match H with
      | cd_register r => Pr r
      | cd_kept c ls H1 => Pk c ls H1 (go _ _ H1)
      | cd_dissolved i ls out H1 H2 => Pd i ls out H1 (go _ _ H1) H2
      end.
  End Ind.
  Lemma dissolved_parts l ls : Forall2 (fun rc out => underived_child rc -> Forall underived_child out) l ls ->
    Forall underived_child l -> Forall underived_child (List.concat ls).
  Proof. induction 1; intros U; inversion U; subst; cbn [List.concat]; [constructor|]. apply Forall_app. auto. Qed.
  Lemma dissolved_underived rc out : child_dissolved rc out -> underived_child rc -> Forall underived_child out.
  Proof.
    intros H. refine (dissolved_ind (fun rc out => underived_child rc -> Forall underived_child out) _ _ _ rc out H); clear rc out H.
    - intros r U. auto.
    - intros c ls _ IH U. inversion U; subst. constructor; [|constructor]. destruct c; constructor; try assumption; cbn [mapped info cluster_with c_children] in *;
        now apply (dissolved_parts _ _ IH).
    - intros i ls out _ IH M U. inversion U; subst. eapply all_moved; [exact M|]. now apply (dissolved_parts _ _ IH).
  Qed.
  Lemma all_dissolved l ls : Forall2 child_dissolved l ls -> Forall underived_child l -> Forall underived_child (List.concat ls).
  Proof. intros F. apply dissolved_parts. induction F; constructor; eauto using dissolved_underived. Qed.
  Lemma more ix k k' b rc l : (k <= k')%nat -> expand_rc m ix k b rc = Ok l -> expand_rc m ix k' b rc = Ok l.
  Proof. intros L E. destruct (expand_rc_mono m ix k k' b rc L) as [H|H]; congruence. Qed.
  Lemma more_parts ix k k' b l out : (k <= k')%nat -> concatM (expand_rc m ix k b) l = Ok out -> concatM (expand_rc m ix k' b) l = Ok out.
  Proof.
    intros L E. apply concatM_ok in E as (os & F & ->). apply concatM_ok. exists os. split; [|reflexivity].
    induction F; constructor; eauto using more.
  Qed.
  Lemma dissolve_forth rc out : child_dissolved rc out -> underived_child rc ->
    forall ix ix' k b b' l, expand_rc m ix k b rc = Ok l -> concatM (expand_rc m ix' k b') out = Ok l.
  Proof.
    intros H. refine (dissolved_ind (fun rc out => underived_child rc -> forall ix ix' k b b' l, expand_rc m ix k b rc = Ok l ->
      concatM (expand_rc m ix' k b') out = Ok l) _ _ _ rc out H); clear rc out H.
    - intros r U ix ix' k b b' l E. rewrite concat_one. now rewrite (rc_path ix' ix k b' b _ U).
    - intros c ls _ IH U ix ix' k b b' l E. rewrite concat_one. destruct k as [|k]; [discriminate E|]. cbn [expand_rc] in E |- *.
      inversion U as [|c' D Us E']. subst c'. unfold cluster_info, cluster in *. rewrite D in E. cbn [bind fst snd opt_default] in E.
      apply bind_ok in E as (kids & Ek & E). rewrite Forall_forall in Us.
      assert (K : forall b2, concatM (expand_rc m ix' k b2) (List.concat ls) = Ok kids).
      { intros b2. eapply concat_parts; [exact IH| |exact Ek]. cbv beta. intros a o r I P X. exact (P (Us a I) _ _ _ _ _ _ X). }
      destruct c as [i|i d]; cbn [mapped info cluster_with c_derived_from c_children c_name ma_map] in *; rewrite D; cbn [bind fst snd opt_default info c_children cluster_with]; rewrite K; exact E.
    - intros i ls out Ds IH M U ix ix' k b b' l E. destruct k as [|k]; [discriminate E|]. cbn [expand_rc info] in E.
      inversion U as [|c' D Us E']. subst c'. cbn [info] in D, Us. rewrite D in E. cbn [bind fst snd opt_default info ma_map] in E.
      apply bind_ok in E as (kids & Ek & E). pose proof Us as Us'. rewrite Forall_forall in Us'.
      assert (K : concatM (expand_rc m ix' k b') (List.concat ls) = Ok kids).
      { eapply concat_parts; [exact IH| |exact Ek]. cbv beta. intros a o r I P X. exact (P (Us' a I) _ _ _ _ _ _ X). }
      apply (more_parts ix' k); [auto|]. apply (children_beside ix' ix' k b' b' (c_name i) (c_address_offset i) (List.concat ls) out); [|exact M|].
      + exact (all_dissolved _ _ Ds Us).
      + rewrite K. exact E.
  Qed.
  Lemma parts_back' l ls : Forall2 (fun rc out => underived_child rc -> forall ix ix' k b b' l, concatM (expand_rc m ix' k b') out = Ok l ->
      exists k', expand_rc m ix k' b rc = Ok l) l ls -> Forall underived_child l ->
    forall ix ix' k b b' out, concatM (expand_rc m ix' k b') (List.concat ls) = Ok out -> exists k', concatM (expand_rc m ix k' b) l = Ok out.
  Proof.
    induction 1 as [|x o l ls H F IH]; intros U ix ix' k b b' out E; [exists k; exact E|]. inversion U as [|x' l' Ux Ul]. subst x' l'. cbn [List.concat] in E.
    rewrite concatM_app in E. apply bind_ok in E as (y & Y & E). apply bind_ok in E as (ys & Ys & E). injection E as <-.
    destruct (H Ux ix ix' k b b' y Y) as (k1 & K1). destruct (IH Ul ix ix' k b b' ys Ys) as (k2 & K2). exists (Nat.max k1 k2). cbn [concatM].
    rewrite (more ix k1 (Nat.max k1 k2) b x y (Nat.le_max_l _ _) K1). cbn [bind].
    rewrite (more_parts ix k2 (Nat.max k1 k2) b l ys (Nat.le_max_r _ _) K2). reflexivity.
  Qed.
  Lemma dissolve_back rc out : child_dissolved rc out -> underived_child rc ->
    forall ix ix' k b b' l, concatM (expand_rc m ix' k b') out = Ok l -> exists k', expand_rc m ix k' b rc = Ok l.
  Proof.
    intros H. refine (dissolved_ind (fun rc out => underived_child rc -> forall ix ix' k b b' l, concatM (expand_rc m ix' k b') out = Ok l ->
      exists k', expand_rc m ix k' b rc = Ok l) _ _ _ rc out H); clear rc out H.
    - intros r U ix ix' k b b' l E. rewrite concat_one in E. exists k. now rewrite (rc_path ix ix' k b b' _ U).
    - intros c ls Ds IH U ix ix' k b b' l E. rewrite concat_one in E. destruct k as [|k]; [discriminate E|]. cbn [expand_rc] in E.
      inversion U as [|c' D Us E']. subst c'. unfold cluster_info, cluster in *.
      assert (K : exists kids b2, concatM (expand_rc m ix' k b2) (List.concat ls) = Ok kids /\
        match ma_map (fun i : cluster_info_of register_cluster => c_with i kids (c_derived_from i)) c with
        | Single i => expand_cluster m i
        | Array i d => concatM (fun n => let* x := cluster_instance m i d n in expand_cluster m x) (upto (de_dim d))
        end = Ok l).
      { destruct c as [i|i d]; cbn [mapped info cluster_with c_derived_from c_children c_name ma_map] in *; rewrite D in E;
          cbn [bind fst snd opt_default info c_children cluster_with] in E; apply bind_ok in E as (kids & Ek & E); exists kids; eexists; split; [exact Ek|exact E|exact Ek|exact E]. }
      destruct K as (kids & b2 & Ek & El). destruct (parts_back' _ _ IH Us ix ix' k (new_cluster b (c_name (info c))) b2 kids Ek) as (k' & K').
      exists (S k'). cbn [expand_rc]. unfold cluster_info, cluster in *. rewrite D. cbn [bind fst snd opt_default]. rewrite K'. exact El.
    - intros i ls out Ds IH M U ix ix' k b b' l E. inversion U as [|c' D Us E']. subst c'. cbn [info] in D, Us.
      apply (children_beside ix' ix' k b' b' (c_name i) (c_address_offset i) (List.concat ls) out (all_dissolved _ _ Ds Us) M) in E.
      apply bind_ok in E as (kids & Ek & E). destruct (parts_back' _ _ IH Us ix ix' k (new_cluster b (c_name i)) b' kids Ek) as (k' & K').
      exists (S k'). cbn [expand_rc info]. rewrite D. cbn [bind fst snd opt_default info ma_map]. rewrite K'. exact E.
  Qed.
  Lemma peripheral_dissolved_underived p p' : peripheral_dissolved p p' -> underived_peripheral p -> underived_peripheral p'.
  Proof.
    intros (o & C & ->) [D U]. split; [destruct p; exact D|].
    replace (p_registers (info (mapped (fun i => peripheral_with i o) p))) with o by now destruct p.
    destruct (p_registers (info p)) as [rs|], o as [rs'|]; try contradiction; [|constructor]. destruct C as (ls & F & ->). cbn [or_empty] in *.
    exact (all_dissolved _ _ F U).
  Qed.
  Lemma peripheral_forth p p' ix ix' k l : peripheral_dissolved p p' -> underived_peripheral p ->
    expand_peripheral m ix k p = Ok l -> expand_peripheral m ix' k p' = Ok l.
  Proof.
    intros (o & C & ->) [D U] E. rewrite (peripheral_plain _ _ _ _ D) in E. rewrite peripheral_plain by (destruct p; exact D).
    replace (p_registers (info (mapped (fun i => peripheral_with i o) p))) with o by now destruct p.
    apply bind_ok in E as (rs & Rs & E). assert (K : forall b, children_done m ix' k b o = Ok rs).
    { intros b. unfold children_done in *. destruct (p_registers (info p)) as [l0|], o as [l1|]; try contradiction; [|exact Rs].
      destruct C as (ls & F & ->). apply bind_ok in Rs as (z & Z & Rs). cbn [or_empty] in U. rewrite Forall_forall in U.
      assert (G : concatM (expand_rc m ix' k b) (List.concat ls) = Ok z); [|rewrite G; exact Rs].
      eapply concat_parts; [exact F| |exact Z]. intros a q r I P X. exact (dissolve_forth a q P (U a I) _ _ _ _ _ _ X). }
    rewrite K. cbn [bind]. destruct p; exact E.
  Qed.
  Lemma peripheral_back' p p' ix ix' k l : peripheral_dissolved p p' -> underived_peripheral p ->
    expand_peripheral m ix' k p' = Ok l -> exists k', expand_peripheral m ix k' p = Ok l.
  Proof.
    intros (o & C & ->) [D U] E. rewrite peripheral_plain in E by (destruct p; exact D).
    replace (p_registers (info (mapped (fun i => peripheral_with i o) p))) with o in E by now destruct p.
    apply bind_ok in E as (rs & Rs & E).
    assert (K : exists k', children_done m ix k' (bp_new (p_name (info p))) (p_registers (info p)) = Ok rs).
    { unfold children_done in *. destruct (p_registers (info p)) as [l0|], o as [l1|]; try contradiction; [|exists k; exact Rs].
      destruct C as (ls & F & ->). apply bind_ok in Rs as (z & Z & Rs). cbn [or_empty] in U.
      destruct (parts_back' l0 ls) with (ix := ix) (ix' := ix') (k := k) (b := bp_new (p_name (info p)))
        (b' := bp_new (p_name (info (mapped (fun i => peripheral_with i (Some (List.concat ls))) p)))) (out := z) as (k' & K'); [|exact U|exact Z|exists k'; rewrite K'; exact Rs].
      clear -F. induction F; constructor; eauto using dissolve_back. }
    destruct K as (k' & K). exists k'. rewrite (peripheral_plain _ _ _ _ D), K. cbn [bind]. destruct p; exact E.
  Qed.
End Open.

Lemma dissolved_expands m fuel d d' e : underived d -> device_dissolved d d' -> expand m fuel d = Ok e -> expand m fuel d' = Ok e.
Proof.
  intros U (S & F) E. unfold expand in E. apply bind_ok in E as (ix & I & E). apply bind_ok in E as (ps & Ps & E). injection E as <-.
  assert (G : forall jx, concatM (expand_peripheral m jx fuel) (d_peripherals d') = Ok ps).
  { intros jx. unfold underived in U. clear -F U Ps. revert ps Ps. induction F as [|p p' l l' H F IH]; intros ps Ps; [exact Ps|].
    inversion U; subst. cbn [concatM] in *. apply bind_ok in Ps as (y & Y & Ps). apply bind_ok in Ps as (ys & Ys & Ps).
    rewrite (peripheral_forth m p p' ix jx fuel y H) by assumption. cbn [bind]. rewrite (IH ltac:(assumption) ys Ys). exact Ps. }
  assert (L : Forall listable_p (d_peripherals d')).
  { assert (U' : Forall underived_peripheral (d_peripherals d')).
    { clear -F U. unfold underived in U. induction F; inversion U; subst; constructor; eauto using peripheral_dissolved_underived. }
    rewrite Forall_forall in U'. apply Forall_forall. intros p P. destruct (concat_each _ _ _ (G []) p P) as (o & Eo).
    exact (peripheral_expandable m [] fuel p o (U' p P) Eo). }
  apply device_list in L as (ix' & I'). unfold expand. rewrite I'. cbn [bind]. rewrite (G ix'). cbn [bind]. f_equal. exact (same_set d d' ps S).
Qed.
Lemma dissolved_back m fuel d d' e : underived d -> device_dissolved d d' -> expand m fuel d' = Ok e ->
  exists k, forall fuel', (k <= fuel')%nat -> expand m fuel' d = Ok e.
Proof.
  intros U (S & F) E. unfold expand in E. apply bind_ok in E as (ix & I & E). apply bind_ok in E as (ps & Ps & E). injection E as <-.
  assert (G : forall jx, exists k, concatM (expand_peripheral m jx k) (d_peripherals d) = Ok ps).
  { intros jx. unfold underived in U. clear -F U Ps. revert ps Ps. induction F as [|p p' l l' H F IH]; intros ps Ps; [exists fuel; exact Ps|].
    inversion U as [|x y Up Ul]; subst. cbn [concatM] in *. apply bind_ok in Ps as (y & Y & Ps). apply bind_ok in Ps as (ys & Ys & Ps).
    destruct (peripheral_back' m p p' jx ix fuel y H Up Y) as (k1 & K1). destruct (IH Ul ys Ys) as (k2 & K2). exists (Nat.max k1 k2).
    destruct (expand_peripheral_mono m jx k1 (Nat.max k1 k2) p (Nat.le_max_l _ _)) as [X|X]; [congruence|]. rewrite X, K1. cbn [bind].
    assert (X2 : concatM (expand_peripheral m jx (Nat.max k1 k2)) l = Ok ys); [|rewrite X2; exact Ps].
    apply concatM_ok in K2 as (os & K2 & ->). apply concatM_ok. exists os. split; [|reflexivity]. clear -K2.
    induction K2 as [|a o l os H K IH]; constructor; auto. destruct (expand_peripheral_mono m jx k2 (Nat.max k1 k2) a (Nat.le_max_r _ _)) as [X|X]; congruence. }
  assert (L : Forall listable_p (d_peripherals d)).
  { destruct (G []) as (k & K). unfold underived in U. rewrite Forall_forall in U. apply Forall_forall. intros p P.
    destruct (concat_each _ _ _ K p P) as (o & Eo). exact (peripheral_expandable m [] k p o (U p P) Eo). }
  apply device_list in L as (ix' & I'). destruct (G ix') as (k & K).
  assert (X : expand m k d = Ok (d_set_peripherals d ps)) by (unfold expand; rewrite I'; cbn [bind]; rewrite K; reflexivity).
  exists k. intros fuel' L. rewrite (same_set d d' ps S). destruct (expand_mono m k fuel' d L) as [Y|Y]; congruence.
Qed.

(** ** Without arrays, all clusters can be dissolved *)
Lemma single_fields m jx fuel rp fs : Forall underived_field fs -> Forall (fun f => is_single f = true) fs -> concatM (expand_field m jx fuel rp) fs = Ok fs.
Proof.
  intros U S. induction fs as [|f fs IH]; [reflexivity|]. inversion U; inversion S; subst. cbn [concatM]. rewrite field_plain by assumption.
  destruct f as [i|i d]; [|discriminate]. cbn [bind]. now rewrite IH.
Qed.
Lemma dissolve_all jx fuel : forall b rc l, child_single rc -> underived_child rc -> expand_rc Debug jx fuel b rc = Ok l -> child_dissolved rc l.
Proof.
  induction fuel as [|k IH]; intros b rc l S U E; [discriminate E|]. destruct S as [i S|i S]; cbn [expand_rc] in E.
  - inversion U as [r D Us E'|]. subst r. rewrite (register_plain _ _ _ _ _ D) in E. cbn [info] in *.
    assert (K : forall rp, fields_done Debug jx k rp (r_fields i) = Ok (r_fields i)).
    { intros rp. unfold fields_done. destruct (r_fields i) as [fs|]; [|reflexivity]. cbn [or_empty] in *. now rewrite (single_fields _ _ _ _ _ Us S). }
    rewrite K in E. cbn [bind mapped] in E. injection E as <-. replace (register_with i (r_fields i)) with i by now destruct i. apply cd_register.
  - inversion U as [|c' D Us E']. subst c'. cbn [info] in *. rewrite D in E. cbn [bind fst snd opt_default info ma_map] in E.
    apply bind_ok in E as (kids & Ek & E). rewrite hoist_children in E. cbn [c_with c_name c_address_offset c_children] in E.
    apply concatM_ok in Ek as (os & F & ->). apply cd_dissolved with (ls := os).
    + clear -F S Us IH. induction F; inversion S; inversion Us; subst; constructor; eauto.
    + assert (Fl : Forall flat_child (List.concat os)).
      { clear -F. induction F; cbn [List.concat]; [constructor|]. apply Forall_app. split; [eapply expand_rc_flat; eauto|assumption]. }
      apply mapM_ok in E. clear -E Fl. induction E as [|x y l l' H E IH]; [constructor|]. inversion Fl as [|x' l0 Fx Fl']. subst x' l0. constructor; [|now apply IH].
      clear IH E. destruct Fx as (r0 & -> & j & -> & _). cbn [hoist info ma_map] in H. apply bind_ok in H as (off & A & H). injection H as <-.
      unfold add32, add_w in A. destruct (r_address_offset j + c_address_offset i <? pow32) eqn:L; [|discriminate A]. injection A as <-. apply N.ltb_lt in L.
      apply (cm_register (c_name i) (c_address_offset i) (Single j)). split; [exact L|exact I].
Qed.
Lemma dissolve_device fuel d e : device_single d -> underived d -> expand Debug fuel d = Ok e -> device_dissolved d e.
Proof.
  intros S U E. unfold expand in E. apply bind_ok in E as (ix & _ & E). apply bind_ok in E as (ps & Ps & E). injection E as <-.
  split; [unfold same_but_peripherals; destruct d; cbn; repeat split|]. cbn [d_peripherals d_set_peripherals].
  replace (d_peripherals (d_set_peripherals d ps)) with ps by now destruct d. unfold device_single, underived in *.
  revert ps Ps. induction (d_peripherals d) as [|p l IH]; intros ps Ps; [injection Ps as <-; constructor|]. inversion S as [|x y [S1 S2] S3]; inversion U as [|x' y' [D U1] U2]; subst.
  cbn [concatM] in Ps. apply bind_ok in Ps as (o & Po & Ps). apply bind_ok in Ps as (os & Pos & Ps). injection Ps as <-.
  rewrite (peripheral_plain _ _ _ _ D) in Po. apply bind_ok in Po as (rs & Rs & Po). destruct p as [i|i de]; [|discriminate S1]. cbn [mapped info] in *. injection Po as <-.
  constructor; [|now apply IH]. exists rs. split; [|reflexivity]. cbn [info]. unfold children_done in Rs. destruct (p_registers i) as [l0|]; [|injection Rs as <-; exact I].
  apply bind_ok in Rs as (z & Z & Rs). injection Rs as <-. cbn [or_empty] in *. apply concatM_ok in Z as (zs & F & ->). exists zs. split; [|reflexivity].
  clear -F S2 U1. induction F; inversion S2; inversion U1; subst; constructor; eauto using dissolve_all.
Qed.
