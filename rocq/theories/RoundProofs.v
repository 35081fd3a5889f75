(** Reading back what the encoder writes. *)
From Verif Require Import Base BaseFacts Num NumProofs EnumProofs Types Names Validate Builders Arrays Config Sort Xml Encode
  Parse SpecNum SpecArray ArrayProofs IndexProofs SpecText TrimProofs SpecXml XmlFacts BitProofs PropBits SpecValidate ValidateProofs
  SpecBuild BuilderProofs SpecParse ParseProofs LayoutProofs TreeFacts SpecRound.

(** ** Lists of nodes made of pieces with known tags *)
Definition piece : Type := list string * list xml.
Definition well (p : piece) : Prop := Forall (fun n => is_element n = true /\ In (tag n) (fst p)) (snd p).
Fixpoint flat (ps : list piece) : list xml :=
  match ps with [] => [] | [p] => snd p | p :: ps' => snd p ++ flat ps' end.
Definition mem (k : string) (ks : list string) : bool := existsb (seqb k) ks.
Fixpoint look (k : string) (ps : list piece) : list xml :=
  match ps with [] => [] | p :: ps' => if mem k (fst p) then snd p else look k ps' end.
Fixpoint apart (ps : list piece) : bool :=
  match ps with
  | [] => true
  | p :: ps' => forallb (fun k => forallb (fun q => negb (mem k (fst q))) ps') (fst p) && apart ps'
  end.
Fixpoint keep (pt : string -> bool) (ps : list piece) : list xml :=
  match ps with [] => [] | p :: ps' => if forallb pt (fst p) then snd p ++ keep pt ps' else keep pt ps' end.
Fixpoint uniform (pt : string -> bool) (ps : list piece) : bool :=
  match ps with
  | [] => true
  | p :: ps' => (forallb pt (fst p) || forallb (fun k => negb (pt k)) (fst p)) && uniform pt ps'
  end.

Lemma mem_in k ks : mem k ks = true <-> In k ks.
Proof.
  unfold mem. rewrite existsb_exists. split.
  - intros (x & I & E). apply seqb_eq in E. now subst.
  - intros I. exists k. split; [exact I|apply seqb_refl].
Qed.
Lemma flat_cons p ps : flat (p :: ps) = snd p ++ flat ps.
Proof. destruct ps; [cbn; now rewrite app_nil_r|reflexivity]. Qed.
Lemma flat_app ps qs : flat (ps ++ qs) = flat ps ++ flat qs.
Proof. induction ps as [|p ps IH]; [reflexivity|]. cbn [app]. rewrite !flat_cons, IH. now rewrite app_assoc. Qed.
Lemma well_lacks k p : well p -> mem k (fst p) = false -> lacks k (snd p).
Proof.
  intros W M. unfold lacks, well in *. rewrite Forall_forall in *. intros n I. destruct (W n I) as [E J].
  destruct n; try discriminate. cbn in *. apply seqb_neq. intros ->. apply mem_in in J. congruence.
Qed.
Lemma look_lacks k ps : Forall well ps -> forallb (fun q => negb (mem k (fst q))) ps = true -> lacks k (flat ps).
Proof.
  intros W. induction W as [|p ps Wp W IH]; [constructor|]. rewrite flat_cons. cbn.
  intros H. apply andb_prop in H as [H1 H2]. apply Forall_app. split; [|now apply IH].
  apply well_lacks; auto. now destruct (mem k (fst p)).
Qed.
Lemma pieces_find k ps : Forall well ps -> apart ps = true ->
  find_first (has_tag k) (flat ps) = find_first (has_tag k) (look k ps).
Proof.
  intros W. induction W as [|p ps Wp W IH]; [reflexivity|]. rewrite flat_cons. cbn [apart look]. intros A.
  apply andb_prop in A as [A1 A2]. destruct (mem k (fst p)) eqn:M.
  - rewrite find_app. destruct (find_first _ (snd p)); [reflexivity|]. apply find_lacks_all. apply look_lacks; auto.
    rewrite forallb_forall in A1. apply A1. now apply mem_in.
  - rewrite find_lacks by now apply well_lacks. now apply IH.
Qed.
Lemma filter_all {A} (f : A -> bool) l : Forall (fun a => f a = true) l -> filter f l = l.
Proof. induction 1 as [|a l H _ IH]; [reflexivity|]. cbn. now rewrite H, IH. Qed.
Lemma filter_none {A} (f : A -> bool) l : Forall (fun a => f a = false) l -> filter f l = [].
Proof. induction 1 as [|a l H _ IH]; [reflexivity|]. cbn. now rewrite H, IH. Qed.
Lemma pieces_filter (f : xml -> bool) pt ps : (forall n, is_element n = true -> f n = pt (tag n)) ->
  Forall well ps -> uniform pt ps = true -> filter f (flat ps) = keep pt ps.
Proof.
  intros F W. induction W as [|p ps Wp W IH]; [reflexivity|]. rewrite flat_cons. cbn [uniform keep]. intros U.
  apply andb_prop in U as [U1 U2]. rewrite filter_app, (IH U2). unfold well in Wp. rewrite Forall_forall in Wp.
  destruct (forallb pt (fst p)) eqn:A.
  - f_equal. apply filter_all. apply Forall_forall. intros n I. destruct (Wp n I) as [E J]. rewrite F by auto.
    rewrite forallb_forall in A. now apply A.
  - rewrite filter_none; [reflexivity|]. apply Forall_forall. intros n I. destruct (Wp n I) as [E J]. rewrite F by auto.
    cbn in U1. rewrite forallb_forall in U1. specialize (U1 _ J). now destruct (pt (tag n)).
Qed.

Lemma well_opt {A} k (f : A -> xml) o : (forall a, has_tag k (f a) = true) -> well ([k], opt_node f o).
Proof.
  intros H. unfold well. destruct o as [a|]; cbn; [|constructor]. constructor; [|constructor]. specialize (H a).
  destruct (f a); try discriminate. cbn in *. apply seqb_eq in H. auto.
Qed.
Lemma well_map {A} k (f : A -> xml) l : (forall a, has_tag k (f a) = true) -> well ([k], map f l).
Proof.
  intros H. unfold well. cbn. rewrite Forall_forall. intros n I. apply in_map_iff in I as (a & <- & _). specialize (H a).
  destruct (f a); try discriminate. cbn in *. apply seqb_eq in H. auto.
Qed.
Lemma well_list (p : piece) : forallb (fun n => is_element n && mem (tag n) (fst p)) (snd p) = true -> well p.
Proof.
  unfold well. rewrite forallb_forall, Forall_forall. intros H n I. specialize (H n I). apply andb_prop in H as [H1 H2].
  split; [exact H1|now apply mem_in].
Qed.
Lemma well_tags (ks : list string) l : (forall n, In n l -> exists k, In k ks /\ has_tag k n = true) -> well (ks, l).
Proof.
  intros H. unfold well. cbn. apply Forall_forall. intros n I. destruct (H n I) as (k & J & E).
  destruct n; try discriminate. cbn in *. apply seqb_eq in E. subst. auto.
Qed.
Lemma find_opt {A} k (f : A -> xml) o : (forall a, has_tag k (f a) = true) ->
  find_first (has_tag k) (opt_node f o) = option_map f o.
Proof. intros H. destruct o as [a|]; [|reflexivity]. cbn. now rewrite H. Qed.

(** ** Reading single children *)
Lemma fits_trim s : text_fits s -> trim s = s /\ s <> ""%string.
Proof. intros [N T]. split; [now apply trim_spec|exact N]. Qed.
Lemma get_text_new k s : s <> ""%string -> get_text (new_node k s) = Ok (trim s).
Proof. intros N. unfold get_text. now rewrite text_new_node. Qed.
Lemma get_text_empty k : get_text (new_node k "") = Err (EEmptyTag k).
Proof. reflexivity. Qed.
Lemma tidy_idem o : tidy_text (tidy_text o) = tidy_text o.
Proof. destruct o as [[|]|]; reflexivity. Qed.

Section Node.
  Variable n : xml.
  Lemma a_text_opt k o : get_child k n = option_map (new_node k) o -> text_opt (tidy_text o) ->
    get_child_text_opt k n = Ok (tidy_text o).
  Proof.
    unfold get_child_text_opt. intros -> F. destruct o as [[|c s]|]; cbn [option_map tidy_text] in *; [reflexivity| |reflexivity].
    destruct (fits_trim _ F) as [T N]. rewrite get_text_new by exact N. now rewrite T.
  Qed.
  Lemma a_text k s : get_child k n = Some (new_node k s) -> text_fits s -> get_child_text k n = Ok s.
  Proof.
    intros G F. destruct (fits_trim _ F) as [T N]. unfold get_child_text, get_child_text_opt. rewrite G, get_text_new by exact N.
    cbn [bind ok_or]. now rewrite T.
  Qed.
  Lemma a_num_node bound k f v : v < bound -> num_parse bound (num_node k f v) = Ok v.
  Proof.
    intros B. unfold num_parse, num_node. rewrite get_text_new; [cbn [bind]; now apply format_trim_parse|].
    intros E. pose proof (format_parse (v + 1) f v) as P. rewrite E in P. specialize (P ltac:(lia)).
    unfold parse_num, parse_dec in P. cbn in P. discriminate.
  Qed.
  Lemma a_u32 k f v : get_child k n = Some (num_node k f v) -> v < 2 ^ 32 -> get_child_u32 k n = Ok v.
  Proof. intros G B. unfold get_child_u32, get_child_elem. rewrite G. cbn [ok_or bind]. now apply a_num_node. Qed.
  Lemma a_u64 k f v : get_child k n = Some (num_node k f v) -> v < 2 ^ 64 -> get_child_u64 k n = Ok v.
  Proof. intros G B. unfold get_child_u64, get_child_elem. rewrite G. cbn [ok_or bind]. now apply a_num_node. Qed.
  Lemma a_opt {A} (parse : xml -> res A) (f : A -> xml) k o : get_child k n = option_map f o ->
    opt_all (fun a => parse (f a) = Ok a) o -> optional parse k n = Ok o.
  Proof. unfold optional. intros -> F. destruct o as [a|]; [|reflexivity]. cbn in *. now rewrite F. Qed.
  Lemma a_opt_with {A B} (parse : xml -> res B) (f : A -> xml) (g : A -> B) k o : get_child k n = option_map f o ->
    opt_all (fun a => parse (f a) = Ok (g a)) o -> optional parse k n = Ok (option_map g o).
  Proof. unfold optional. intros -> F. destruct o as [a|]; [|reflexivity]. cbn in *. now rewrite F. Qed.
  Lemma a_opt_num bound k f o : get_child k n = option_map (num_node k f) o -> below bound o ->
    optional (num_parse bound) k n = Ok o.
  Proof. intros G B. apply (a_opt _ (num_node k f)); [exact G|]. destruct o; cbn in *; [|exact I]. now apply a_num_node. Qed.
  Lemma a_bool_node k b : bool_parse (bool_node k b) = Ok b.
  Proof. destruct b; reflexivity. Qed.
  Lemma a_bool k b : get_child k n = Some (bool_node k b) -> get_child_bool k n = Ok b.
  Proof. intros G. unfold get_child_bool, get_child_elem. rewrite G. cbn [ok_or bind]. apply a_bool_node. Qed.
  Lemma a_opt_bool k o : get_child k n = option_map (bool_node k) o -> optional bool_parse k n = Ok o.
  Proof. intros G. apply (a_opt _ (bool_node k)); [exact G|]. destruct o; cbn; [apply a_bool_node|exact I]. Qed.
  Lemma a_dflt k o : get_child k n = option_map (bool_node k) o -> ok_of (get_child_bool k n) = Ok o.
  Proof.
    intros G. unfold get_child_bool, get_child_elem. rewrite G. destruct o; cbn [option_map ok_or bind]; [|reflexivity].
    rewrite a_bool_node. reflexivity.
  Qed.
End Node.

Lemma e_access x : access_parse_node (access_encode x) = Ok x. Proof. destruct x; reflexivity. Qed.
Lemma e_usage x : usage_parse_node (usage_encode x) = Ok x. Proof. destruct x; reflexivity. Qed.
Lemma e_data_type x : data_type_parse_node (data_type_encode x) = Ok x. Proof. destruct x; reflexivity. Qed.
Lemma e_mwv x : mwv_parse_node (mwv_encode x) = Ok x. Proof. destruct x; reflexivity. Qed.
Lemma e_read_action x : read_action_parse_node (read_action_encode x) = Ok x. Proof. destruct x; reflexivity. Qed.
Lemma e_protection x : protection_parse_node (protection_encode x) = Ok x. Proof. destruct x; reflexivity. Qed.
Lemma e_endian x : endian_parse_node (endian_encode x) = Ok x. Proof. destruct x; reflexivity. Qed.
Lemma e_ab_usage x : ab_usage_parse_node (ab_usage_encode x) = Ok x. Proof. destruct x; reflexivity. Qed.
Lemma all_opt {A} (P : A -> Prop) o : (forall a, P a) -> opt_all P o.
Proof. destruct o; cbn; auto. Qed.

(** ** What an element shows to the reader, apart from array dimensions *)
Definition dim_tags : list string := ["dim"; "dimIncrement"; "dimIndex"; "dimName"; "dimArrayIndex"].
Definition shows (t : string) (d : option string) (n : xml) (ps : list piece) : Prop :=
  has_tag t n = true /\ attr "derivedFrom" n = d /\ Forall well ps /\
  (forall k, mem k dim_tags = false -> get_child k n = find_first (has_tag k) (look k ps)) /\
  (forall f, (forall x, is_element x = true -> In (tag x) dim_tags -> f x = false) ->
     filter f (children n) = filter f (flat ps)).
Lemma shows_single t a ps : Forall well ps -> apart ps = true ->
  shows t (attr "derivedFrom" (Elem t a [])) (Elem t a (flat ps)) ps.
Proof.
  intros W A. split; [apply seqb_refl|]. split; [reflexivity|]. split; [exact W|]. split; [|reflexivity].
  intros k _. unfold get_child. cbn [children]. now apply pieces_find.
Qed.
Lemma shows_derived t f d ps : Forall well ps -> apart ps = true ->
  shows t (option_map f d) (Elem t (derived_attr f d) (flat ps)) ps.
Proof. destruct d; apply shows_single. Qed.
Lemma merge_dims t u dch f d ps : Forall well ps -> apart ps = true -> well (dim_tags, dch) ->
  let n := merge (merge (Elem t [] []) (Elem u [] dch)) (Elem t (derived_attr f d) (flat ps)) in
  shows t (option_map f d) n ps /\ (forall k, find_first (has_tag k) dch <> None -> get_child k n = find_first (has_tag k) dch) /\
  (forall k, lacks k (flat ps) -> get_child k n = find_first (has_tag k) dch).
Proof.
  intros W A D n. assert (C : children n = dch ++ flat ps) by (destruct d; reflexivity). conjs.
  - split; [destruct d; apply seqb_refl|]. split; [destruct d; reflexivity|]. split; [exact W|]. split.
    + intros k K. unfold get_child. rewrite C. rewrite find_lacks by (apply (well_lacks k _ D K)). now apply pieces_find.
    + intros g G. rewrite C, filter_app, filter_none; [reflexivity|]. unfold well in D. cbn [fst snd] in D.
      rewrite Forall_forall in *. intros x I. destruct (D x I). now apply G.
  - intros k H. unfold get_child. rewrite C, find_app. destruct (find_first _ dch); congruence.
  - intros k H. unfold get_child. rewrite C, find_app. destruct (find_first _ dch); [reflexivity|now apply find_lacks_all].
Qed.

Ltac wells := repeat match goal with |- Forall well (_ :: _) => apply Forall_cons | |- Forall well [] => apply Forall_nil end;
  try (apply well_opt; intros; reflexivity); try (apply well_map; intros; reflexivity);
  try (apply well_list; reflexivity).
(** Required and optional children, from the third part of [shows]. *)
Ltac kid := match goal with
  | K : forall k, mem k dim_tags = false -> get_child k ?n = _ |- get_child _ ?n = _ =>
      rewrite K by reflexivity; first [reflexivity | apply find_opt; intros; reflexivity]
  end.

(** ** Register properties *)
Definition rp_pieces (cfg : config) (p : reg_props) : list piece :=
  [(["size"], opt_node (num_node "size" (cfg_register_size cfg)) (rp_size p));
   (["access"], opt_node access_encode (rp_access p));
   (["protection"], opt_node protection_encode (rp_protection p));
   (["resetValue"], opt_node (num_node "resetValue" (cfg_register_reset_value cfg)) (rp_reset_value p));
   (["resetMask"], opt_node (num_node "resetMask" (cfg_register_reset_mask cfg)) (rp_reset_mask p))].
Lemma rp_flat cfg p : rp_encode cfg p = flat (rp_pieces cfg p).
Proof. reflexivity. Qed.
Lemma rp_well cfg p : Forall well (rp_pieces cfg p).
Proof. unfold rp_pieces. wells. Qed.
Definition rp_tags : list string := ["size"; "access"; "protection"; "resetValue"; "resetMask"].
Lemma rp_piece cfg p : well (rp_tags, rp_encode cfg p).
Proof.
  apply well_tags. rewrite rp_flat. intros n I.
  assert (F : forall ps, Forall well ps -> Forall (fun p => incl (fst p) rp_tags) ps -> In n (flat ps) -> exists k, In k rp_tags /\ has_tag k n = true).
  { clear. induction ps as [|p ps IH]; [intros _ _ []|]. intros W S. inversion W; subst. inversion S; subst.
    rewrite flat_cons, in_app_iff. intros [I|I]; [|now apply IH]. unfold well in H1. rewrite Forall_forall in H1.
    destruct (H1 n I) as [E J]. exists (tag n). split; [now apply H3|]. destruct n; try discriminate. apply seqb_refl. }
  apply (F (rp_pieces cfg p)); auto; [apply rp_well|]. unfold rp_pieces.
  repeat (apply Forall_cons || apply Forall_nil); cbn; intros x [<-|[]]; cbn; tauto.
Qed.
Lemma rp_round pcfg cfg n p : (forall k, In k rp_tags -> get_child k n = find_first (has_tag k) (rp_encode cfg p)) ->
  props_fit (pc_level pcfg) p -> rp_parse pcfg n = Ok p.
Proof.
  intros K (F1 & F2 & F3 & V).
  assert (K' : forall k, In k rp_tags -> get_child k n = find_first (has_tag k) (look k (rp_pieces cfg p))).
  { intros k I. rewrite K by exact I. rewrite rp_flat. apply pieces_find; [apply rp_well|reflexivity]. }
  assert (O : forall A (f : A -> xml) k o, In k rp_tags -> look k (rp_pieces cfg p) = opt_node f o -> (forall a, has_tag k (f a) = true) ->
    get_child k n = option_map f o).
  { intros A f k o I L T. rewrite K', L by exact I. now apply find_opt. }
  unfold rp_parse.
  rewrite (a_opt_num n pow32 "size" (cfg_register_size cfg) (rp_size p)) by (exact F1 || (apply O; [cbn; tauto|reflexivity|intros; reflexivity])).
  cbn [bind].
  rewrite (a_opt n access_parse_node access_encode "access" (rp_access p)) by ((apply all_opt; apply e_access) || (apply O; [cbn; tauto|reflexivity|intros; reflexivity])).
  cbn [bind].
  rewrite (a_opt n protection_parse_node protection_encode "protection" (rp_protection p)) by ((apply all_opt; apply e_protection) || (apply O; [cbn; tauto|reflexivity|intros; reflexivity])).
  cbn [bind].
  rewrite (a_opt_num n pow64 "resetValue" (cfg_register_reset_value cfg) (rp_reset_value p)) by (exact F2 || (apply O; [cbn; tauto|reflexivity|intros; reflexivity])).
  cbn [bind].
  rewrite (a_opt_num n pow64 "resetMask" (cfg_register_reset_mask cfg) (rp_reset_mask p)) by (exact F3 || (apply O; [cbn; tauto|reflexivity|intros; reflexivity])).
  cbn [bind]. apply rp_build_ok. destruct p; auto.
Qed.

(** ** Write constraints *)
Lemma wc_round w : constraint_fits w -> wc_parse (wc_encode w) = Ok w.
Proof.
  destruct w as [b|b|lo hi]; [destruct b; reflexivity..|]. intros [L H].
  unfold wc_parse, wc_encode. cbn [children filter is_element tag]. seqbs.
  unfold get_child_elem, get_child. cbn [children]. rewrite find_cons_elem. seqbs. cbn [ok_or bind]. unfold wc_range_parse.
  rewrite (a_u64 _ "minimum" Dec lo) by (try exact L; reflexivity). cbn [bind].
  rewrite (a_u64 _ "maximum" Dec hi) by (try exact H; reflexivity). reflexivity.
Qed.

(** ** Enumerated values *)
Section Round.
  Variables (m m' : mode) (conv : id_format -> string -> string) (cfg : config) (pcfg : pconfig).
  Hypothesis Henums : pc_ignore_enums pcfg = false.
  Let l := pc_level pcfg.

  Definition ev_pieces (e : enumerated_value) : list piece :=
    [(["name"], [new_node "name" (cc conv (cfg_enumerated_value_name cfg) (ev_name e))]);
     (["description"], opt_node (new_node "description") (ev_description e));
     (["value"], opt_node (num_node "value" (cfg_enumerated_value_value cfg)) (ev_value e));
     (["isDefault"], opt_node (bool_node "isDefault") (ev_is_default e))].
  Lemma ev_shows e : shows "enumeratedValue" None (ev_encode conv cfg e) (ev_pieces e).
  Proof. apply (shows_single _ [] (ev_pieces e)); [unfold ev_pieces; wells|reflexivity]. Qed.
  Lemma ev_round e : value_fits l (w_value conv cfg e) -> ev_item pcfg (ev_encode conv cfg e) = Ok (w_value conv cfg e).
  Proof.
    pose proof (ev_shows e) as (T & _ & _ & K & _). revert T K. generalize (ev_encode conv cfg e) as n. intros n T K.
    intros (F1 & F2 & F3 & V). unfold ev_item. rewrite T. unfold ev_parse, expect_tag. rewrite T. cbn [check bind].
    rewrite (a_text n "name" (ev_name (w_value conv cfg e))) by (exact F1 || kid). cbn [bind].
    rewrite (a_text_opt n "description" (ev_description e)) by (exact F2 || kid). cbn [bind].
    rewrite (a_opt_num n pow64 "value" (cfg_enumerated_value_value cfg) (ev_value e)) by (exact F3 || kid). cbn [bind].
    rewrite (a_dflt n "isDefault" (ev_is_default e)) by kid. cbn [bind].
    unfold ev_build. cbn [required ok_or bind evb_name evb_description evb_value evb_is_default].
    rewrite str_tidy, tidy_idem. apply validated_ok. split; [reflexivity|]. now apply ev_validate_ok.
  Qed.
  Lemma map_round {A B} (enc : A -> xml) (parse : xml -> res B) (g : A -> B) (P : B -> Prop) xs :
    (forall a, P (g a) -> parse (enc a) = Ok (g a)) -> Forall P (map g xs) -> mapM parse (map enc xs) = Ok (map g xs).
  Proof.
    intros H F. rewrite mapM_map. apply mapM_all_ok. intros a I. apply H. rewrite Forall_forall in F. apply F. now apply in_map.
  Qed.
  Lemma evs_round_list es : Forall (value_fits l) (map (w_value conv cfg) es) ->
    mapM (ev_item pcfg) (map (ev_encode conv cfg) es) = Ok (map (w_value conv cfg) es).
  Proof. apply map_round. apply ev_round. Qed.

  Definition evs_pieces (e : enumerated_values) : list piece :=
    [(["name"], opt_node (fun s => new_node "name" (cc conv (cfg_enumerated_values_name cfg) s)) (evs_name e));
     (["usage"], opt_node usage_encode (evs_usage e));
     (["enumeratedValue"], map (ev_encode conv cfg) (evs_values e))].
  Lemma evs_shows e : shows "enumeratedValues" (option_map (cc conv (cfg_enumerated_values_name cfg)) (evs_derived_from e))
    (evs_encode conv cfg e) (evs_pieces e).
  Proof.
    apply (shows_derived _ _ _ (evs_pieces e)); [unfold evs_pieces; wells|reflexivity].
  Qed.
  Lemma opt_map_node (f : string -> string) k o : option_map (fun s => new_node k (f s)) o = option_map (new_node k) (option_map f o).
  Proof. destruct o; reflexivity. Qed.
  Lemma evs_round e : values_fit l (w_values conv cfg e) -> evs_parse pcfg (evs_encode conv cfg e) = Ok (w_values conv cfg e).
  Proof.
    pose proof (evs_shows e) as (T & D & W & K & _).
    assert (C : filter evs_item (children (evs_encode conv cfg e)) = map (ev_encode conv cfg) (evs_values e)).
    { change (children (evs_encode conv cfg e)) with (flat (evs_pieces e)).
      rewrite (pieces_filter _ (fun t => negb (seqb t "name" || seqb t "headerEnumName" || seqb t "usage")))
        by (exact W || reflexivity || (intros n E; unfold evs_item; now rewrite E)).
      cbn. apply app_nil_r. }
    revert T D K C. generalize (evs_encode conv cfg e) as n. intros n T D K C.
    intros (F1 & F2 & V). unfold evs_parse, expect_tag. rewrite T. cbn [check bind].
    rewrite (a_text_opt n "name" (option_map (cc conv (cfg_enumerated_values_name cfg)) (evs_name e)))
      by (exact F1 || (rewrite <- opt_map_node; kid)). cbn [bind].
    rewrite (a_opt n usage_parse_node usage_encode "usage" (evs_usage e)) by (kid || apply all_opt, e_usage). cbn [bind].
    assert (X : collect evs_item (ev_item pcfg) (children n) = Ok (map (w_value conv cfg) (evs_values e))).
    { rewrite collect_filter.
      rewrite C. now apply evs_round_list. }
    rewrite X, D. cbn [bind]. unfold evs_build.
    cbn [evsb_name evsb_usage evsb_derived_from evsb_values opt_default]. rewrite str_tidy, tidy_idem.
    apply validated_ok. split; [reflexivity|]. now apply evs_validate_ok.
  Qed.

  (** ** Array dimensions *)
  Definition dai_pieces (d : dim_array_index) : list piece :=
    [(["headerEnumName"], opt_node (fun s => new_node "headerEnumName" (cc conv (cfg_dim_array_index_header_enum_name cfg) s))
         (dai_header_enum_name d));
     (["enumeratedValue"], map (ev_encode conv cfg) (dai_values d))].
  Lemma dai_round d : dai_fits l (w_dai conv cfg d) -> dai_parse pcfg (dai_encode conv cfg d) = Ok (w_dai conv cfg d).
  Proof.
    assert (W : Forall well (dai_pieces d)) by (unfold dai_pieces; wells).
    pose proof (shows_single "dimArrayIndex" [] (dai_pieces d) W eq_refl) as (_ & _ & _ & K & _).
    change (Elem "dimArrayIndex" [] (flat (dai_pieces d))) with (dai_encode conv cfg d) in K.
    assert (C : filter (fun t => is_element t && negb (seqb (tag t) "headerEnumName")) (children (dai_encode conv cfg d))
       = map (ev_encode conv cfg) (dai_values d)).
    { change (children (dai_encode conv cfg d)) with (flat (dai_pieces d)).
      rewrite (pieces_filter _ (fun t => negb (seqb t "headerEnumName")))
        by (exact W || reflexivity || (intros n E; now rewrite E)).
      cbn. apply app_nil_r. }
    revert K C. generalize (dai_encode conv cfg d) as n. intros n K C (F1 & F2). unfold dai_parse.
    rewrite (a_text_opt n "headerEnumName" (option_map (cc conv (cfg_dim_array_index_header_enum_name cfg)) (dai_header_enum_name d)))
      by (exact F1 || (rewrite <- opt_map_node; kid)). cbn [bind].
    rewrite collect_filter, C. rewrite evs_round_list by exact F2. reflexivity.
  Qed.
  Definition index_node (d : dim_element) (ns : list xml) : Prop :=
    (de_index d = None /\ ns = []) \/
    (exists is t, de_index d = Some is /\ ns = [new_node "dimIndex" t] /\
       ((exists a b, indexes_as_range m d = Ok (Some (a, b)) /\ t = (to_string a ++ "-" ++ to_string b)%string) \/
        t = join "," is)).
  Definition de_pieces (d : dim_element) (index : list xml) : list piece :=
    [(["dim"], [num_node "dim" (cfg_dim_dim cfg) (de_dim d)]);
     (["dimIncrement"], [num_node "dimIncrement" (cfg_dim_increment cfg) (de_increment d)]);
     (["dimIndex"], index);
     (["dimName"], opt_node (new_node "dimName") (de_name d));
     (["dimArrayIndex"], opt_node (dai_encode conv cfg) (de_array_index d))].
  Lemma de_encode_ok d e : de_encode m conv cfg d = Ok e ->
    exists ns, index_node d ns /\ e = Elem "dimElement" [] (flat (de_pieces d ns)).
  Proof.
    unfold de_encode. intros H. apply bind_ok in H as (ns & I & H). injection H as <-. exists ns. split; [|reflexivity].
    destruct (de_index d) as [is|] eqn:D; [|injection I as <-; now left].
    apply bind_ok in I as (r & R & I). injection I as <-. right. exists is. eexists. split; [exact D|]. split; [reflexivity|].
    destruct r as [[a b]|]; [left|now right]. exists a, b. auto.
  Qed.
  Lemma range_visible a b : sforall visible (to_string a ++ "-" ++ to_string b)%string = true.
  Proof. rewrite !sforall_app, !to_string_visible. reflexivity. Qed.
  Lemma index_round d ns : index_node d ns -> de_dim d < 2 ^ 32 -> opt_all (indexes_fit (de_dim d)) (de_index d) ->
    forall n, get_child "dimIndex" n = find_first (has_tag "dimIndex") ns ->
    optional dim_index_parse "dimIndex" n = Ok (de_index d).
  Proof.
    intros X B F n G. unfold optional. rewrite G. destruct X as [(-> & ->)|(is & t & E & -> & X)]; [reflexivity|].
    rewrite E in *. cbn [opt_all] in F. destruct F as (N & L & Fc & Fd & T). cbn [find_first new_node has_tag]. rewrite seqb_refl.
    fold (new_node "dimIndex" t). cbn [mapM_opt]. unfold dim_index_parse.
    destruct X as [(a & b & R & ->)| ->].
    - rewrite get_text_new by (destruct (to_string a) eqn:Z; [now apply fmt_nonempty in Z|discriminate]).
      rewrite trim_visible by apply range_visible. cbn [bind].
      now rewrite (range_parse m d is a b) by (assumption || exact E).
    - rewrite <- (join_glue "," is) in T. destruct (fits_trim _ T) as [T' N']. rewrite get_text_new, T' by exact N'. cbn [bind].
      now rewrite join_parse.
  Qed.
  Lemma de_well d ns : index_node d ns -> Forall well (de_pieces d ns).
  Proof.
    intros I. unfold de_pieces. wells. destruct I as [(_ & ->)|(is & t & _ & -> & _)]; apply well_list; reflexivity.
  Qed.
  Lemma well_flat ks ps : Forall well ps -> Forall (fun p => incl (fst p) ks) ps -> well (ks, flat ps).
  Proof.
    intros W. induction W as [|p ps Wp W IH]; intros S; [constructor|]. inversion S; subst. specialize (IH H2).
    rewrite flat_cons. unfold well in *. cbn [fst snd] in *. apply Forall_app. split; [|exact IH].
    eapply Forall_impl; [|exact Wp]. intros n [E I]. auto.
  Qed.
  Lemma de_piece d ns : index_node d ns -> well (dim_tags, flat (de_pieces d ns)).
  Proof.
    intros I. apply well_flat; [now apply de_well|]. unfold de_pieces.
    repeat match goal with |- Forall _ (_ :: _) => apply Forall_cons | |- Forall _ [] => apply Forall_nil end;
      intros x [<-|[]]; cbn; tauto.
  Qed.
  Lemma de_round d ns n : index_node d ns -> dim_fits l (w_dim conv cfg d) ->
    (forall k, In k dim_tags -> get_child k n = find_first (has_tag k) (flat (de_pieces d ns))) ->
    de_parse pcfg n = Ok (w_dim conv cfg d).
  Proof.
    intros I (F1 & F2 & F3 & F4 & F5) K.
    assert (K' : forall k, In k dim_tags -> get_child k n = find_first (has_tag k) (look k (de_pieces d ns))).
    { intros k J. rewrite K by exact J. apply pieces_find; [now apply de_well|reflexivity]. }
    cbn [w_dim de_dim de_increment de_index de_name de_array_index] in *. unfold de_parse.
    rewrite (a_u32 n "dim" (cfg_dim_dim cfg) (de_dim d)) by (exact F1 || (rewrite K' by (cbn; tauto); reflexivity)). cbn [bind].
    rewrite (a_u32 n "dimIncrement" (cfg_dim_increment cfg) (de_increment d)) by (exact F2 || (rewrite K' by (cbn; tauto); reflexivity)).
    cbn [bind]. rewrite (index_round d ns I F1 F3 n) by (rewrite K' by (cbn; tauto); reflexivity). cbn [bind].
    rewrite (a_text_opt n "dimName" (de_name d)) by (exact F4 || (rewrite K' by (cbn; tauto); apply find_opt; intros; reflexivity)).
    cbn [bind].
    rewrite (a_opt_with n (dai_parse pcfg) (dai_encode conv cfg) (w_dai conv cfg) "dimArrayIndex" (de_array_index d));
      [|rewrite K' by (cbn; tauto); apply find_opt; intros; reflexivity|destruct (de_array_index d); [cbn in *; now apply dai_round|exact Logic.I]].
    cbn [bind]. unfold de_build. cbn [deb_dim deb_increment deb_index deb_name deb_array_index required ok_or bind].
    rewrite str_tidy, tidy_idem, vec_tidy. replace (tidy_list (de_index d)) with (de_index d); [reflexivity|].
    destruct (de_index d) as [[|]|]; try reflexivity. destruct F3 as (N & _). congruence.
  Qed.

  (** ** Arrays: given how the info of a single element is read *)
  Definition no_dims (ps : list piece) : bool := forallb (fun k => forallb (fun q => negb (mem k (fst q))) ps) dim_tags.
  Inductive encoded {A} (t : string) (e : xml) (parse : xml -> xml -> res A) (a' : A) : Prop :=
    | Encoded f d ps : e = Elem t (derived_attr f d) (flat ps) -> Forall well ps -> apart ps = true -> no_dims ps = true ->
        (forall n, shows t (option_map f d) n ps -> parse n n = Ok a') -> encoded t e parse a'.
  Lemma ma_round {A} t (name : A -> string) (enc : A -> res xml) (parse : xml -> xml -> res A) (g : A -> A) (P : A -> Prop) x n :
    (forall e, enc (info x) = Ok e -> P (g (info x)) -> encoded t e parse (g (info x))) ->
    ma_encode m conv cfg t enc x = Ok n -> any_fits l name P (w_any conv cfg g x) ->
    parse_array pcfg t name (parse n) n = Ok (w_any conv cfg g x).
  Proof.
    intros H E F. destruct x as [a|a d]; cbn [ma_encode w_any any_fits info] in *.
    - destruct (H n E F) as [f d ps -> W A0 ND R]. pose proof (shows_derived t f d ps W A0) as S.
      unfold parse_array, expect_tag. rewrite (proj1 S). cbn [check bind]. rewrite (R _ S). cbn [bind].
      unfold get_child. cbn [children]. rewrite find_lacks_all; [reflexivity|]. apply look_lacks; [exact W|].
      unfold no_dims in ND. rewrite forallb_forall in ND. apply ND. cbn; tauto.
    - destruct F as (F & D & PH). apply bind_ok in E as (de & E1 & E). apply bind_ok in E as (e & E2 & E). injection E as <-.
      destruct (H e E2 F) as [f d0 ps -> W A0 ND R]. destruct (de_encode_ok d de E1) as (ns & I & ->).
      pose proof (merge_dims t "dimElement" _ f d0 ps W A0 (de_piece d ns I)) as (S & _ & G).
      set (n := merge _ _) in *. assert (K : forall k, In k dim_tags -> get_child k n = find_first (has_tag k) (flat (de_pieces d ns))).
      { intros k J. apply G. apply look_lacks; [exact W|]. unfold no_dims in ND. rewrite forallb_forall in ND. now apply ND. }
      unfold parse_array, expect_tag. rewrite (proj1 S). cbn [check bind]. rewrite (R _ S). cbn [bind].
      rewrite (K "dimIncrement") by (cbn; tauto).
      rewrite pieces_find by (now apply de_well || reflexivity). cbn [look mem fst existsb seqb orb].
      change (is_some _) with true. cbv iota.
      rewrite (de_round d ns n I D K). cbn [bind]. replace (contains "%s" (name (g a))) with true by (symmetry; now apply contains_spec).
      cbn [check bind w_dim de_index de_dim]. destruct D as (_ & _ & D3 & _). cbn [w_dim de_dim de_index] in D3.
      destruct (de_index d) as [is|]; [|reflexivity]. cbn in D3. destruct D3 as (_ & L & _).
      unfold len_N. rewrite L, N.eqb_refl. reflexivity.
  Qed.

  (** ** Fields *)
  Lemma bits_ext n n' : (forall k, In k bit_tags -> get_child k n = get_child k n') -> bit_range_parse m' n = bit_range_parse m' n'.
  Proof. intros H. unfold bit_range_parse. rewrite !H by (cbn; tauto). reflexivity. Qed.
  Lemma bits_read b ch n : bit_range_encode m cfg b = Ok ch -> bits_fit (w_bits cfg b) ->
    (forall k, In k bit_tags -> get_child k n = find_first (has_tag k) ch) -> bit_range_parse m' n = Ok (w_bits cfg b).
  Proof.
    intros E (B1 & B2 & B3) K. rewrite (bits_ext n (Elem "" [] ([] ++ ch ++ []))).
    - cbn [w_bits br_offset br_width br_type] in *.
      eapply bits_round with (m := m) (h := br_offset b + br_width b - 1); eauto.
      intros H. destruct (B3 H) as [X Y]. unfold pow32. conjs; try lia. now apply br_msb_ok.
      all: intros k x _ [].
    - intros k I. rewrite K by exact I. unfold get_child. cbn [children app]. now rewrite app_nil_r.
  Qed.
  Lemma bits_piece b ch : bit_range_encode m cfg b = Ok ch -> well (bit_tags, ch).
  Proof.
    intros H. apply well_list. unfold bit_range_encode in H. destruct (opt_default _ _).
    - apply bind_ok in H as (t & _ & H). injection H as <-. reflexivity.
    - injection H as <-. reflexivity.
    - apply bind_ok in H as (t & _ & H). injection H as <-. reflexivity.
  Qed.
  Definition field_pieces (f : field_info) (bits : list xml) : list piece :=
    [(["name"], [new_node "name" (cc conv (cfg_field_name cfg) (f_name f))]);
     (["description"], opt_node (new_node "description") (f_description f));
     (bit_tags, bits);
     (["access"], opt_node access_encode (f_access f));
     (["modifiedWriteValues"], opt_node mwv_encode (f_mwv f));
     (["writeConstraint"], opt_node wc_encode (f_write_constraint f));
     (["readAction"], opt_node read_action_encode (f_read_action f));
     (["enumeratedValues"], map (evs_encode conv cfg) (f_enumerated_values f))].
  Lemma tag_filter t n ps : Forall well ps ->
    (forall f, (forall x, is_element x = true -> In (tag x) dim_tags -> f x = false) ->
     filter f (children n) = filter f (flat ps)) -> mem t dim_tags = false -> uniform (fun k => seqb k t) ps = true ->
    filter (has_tag t) (children n) = keep (fun k => seqb k t) ps.
  Proof.
    intros W C M U. rewrite C.
    - apply pieces_filter; auto. intros x E. destruct x; try discriminate. reflexivity.
    - intros x E I. destruct x; try discriminate. cbn [has_tag tag] in *. apply seqb_neq. intros ->. apply mem_in in I. congruence.
  Qed.
  Lemma field_info_round f e : field_info_encode m conv cfg f = Ok e -> field_fits l (w_field conv cfg f) ->
    encoded "field" e (fun _ => field_info_parse m' pcfg) (w_field conv cfg f).
  Proof.
    unfold field_info_encode. intros E (F1 & F2 & F3 & F4 & F5 & V). apply bind_ok in E as (bits & B & E). injection E as <-.
    apply Encoded with (f := cc conv (cfg_field_name cfg)) (d := f_derived_from f) (ps := field_pieces f bits);
      [reflexivity| |reflexivity|reflexivity|].
    { unfold field_pieces. wells. now apply bits_piece with (f_bit_range f). }
    intros n (T & D & W & K & C). cbn [w_field f_name f_description f_bit_range f_write_constraint f_enumerated_values] in F1, F2, F3, F4, F5.
    unfold field_info_parse, expect_tag. rewrite T. cbn [check bind].
    rewrite (bits_read _ bits n B F3) by (intros k I; rewrite K; destruct I as [<-|[<-|[<-|[<-|[<-|[]]]]]]; reflexivity). cbn [bind].
    rewrite (a_text n "name" (cc conv (cfg_field_name cfg) (f_name f))) by (exact F1 || kid). cbn [bind].
    rewrite (a_text_opt n "description" (f_description f)) by (exact F2 || kid). cbn [bind].
    rewrite (a_opt n access_parse_node access_encode "access" (f_access f)) by (kid || apply all_opt, e_access). cbn [bind].
    rewrite (a_opt n mwv_parse_node mwv_encode "modifiedWriteValues" (f_mwv f)) by (kid || apply all_opt, e_mwv). cbn [bind].
    rewrite Henums. cbn [negb].
    rewrite (a_opt n wc_parse wc_encode "writeConstraint" (f_write_constraint f))
      by (kid || (destruct (f_write_constraint f); [cbn in *; now apply wc_round|exact Logic.I])). cbn [bind].
    rewrite (a_opt n read_action_parse_node read_action_encode "readAction" (f_read_action f)) by (kid || apply all_opt, e_read_action).
    cbn [bind]. rewrite collect_filter, (tag_filter "enumeratedValues" n _ W C) by reflexivity.
    replace (keep _ _) with (map (evs_encode conv cfg) (f_enumerated_values f)) by (symmetry; apply app_nil_r).
    rewrite (map_round _ _ (w_values conv cfg) (values_fit l) _ evs_round F5), D. cbn [bind].
    unfold field_build. cbn [fb_name fb_description fb_bit_range fb_access fb_mwv fb_write_constraint fb_read_action
      fb_enumerated_values fb_derived_from required ok_or bind opt_default]. rewrite str_tidy, tidy_idem.
    apply validated_ok. split; [reflexivity|]. now apply field_validate_ok.
  Qed.
  Lemma field_round f n : field_encode m conv cfg f = Ok n -> any_fits l f_name (field_fits l) (w_any conv cfg (w_field conv cfg) f) ->
    field_parse m' pcfg n = Ok (w_any conv cfg (w_field conv cfg) f).
  Proof.
    apply (ma_round "field" f_name (field_info_encode m conv cfg) (fun _ => field_info_parse m' pcfg)).
    intros e. apply field_info_round.
  Qed.
  Lemma ma_tag {A} t (enc : A -> res xml) x n : (forall a e, enc a = Ok e -> has_tag t e = true) ->
    ma_encode m conv cfg t enc x = Ok n -> has_tag t n = true.
  Proof.
    intros H. destruct x as [a|a d]; cbn [ma_encode]; [apply H|].
    intros E. apply bind_ok in E as (de & E1 & E). apply bind_ok in E as (e & E2 & E). injection E as <-.
    apply H in E2. apply de_encode_ok in E1 as (ns & _ & ->). destruct e; try discriminate. apply seqb_refl.
  Qed.
  Lemma field_tag f n : field_encode m conv cfg f = Ok n -> has_tag "field" n = true.
  Proof. apply ma_tag. unfold field_info_encode. intros a e H. apply bind_ok in H as (b & _ & H). injection H as <-. reflexivity. Qed.

  (** ** Registers *)
  Definition register_pieces (r : register_info) (fields : list xml) : list piece :=
    [(["name"], [new_node "name" (cc conv (cfg_register_name cfg) (r_name r))]);
     (["displayName"], opt_node (new_node "displayName") (r_display_name r));
     (["description"], opt_node (new_node "description") (r_description r));
     (["alternateGroup"], opt_node (new_node "alternateGroup") (r_alternate_group r));
     (["alternateRegister"], opt_node (fun v => new_node "alternateRegister" (cc conv (cfg_register_name cfg) v))
         (r_alternate_register r));
     (["addressOffset"], [num_node "addressOffset" (cfg_register_address_offset cfg) (r_address_offset r)]);
     (rp_tags, rp_encode cfg (r_properties r));
     (["dataType"], opt_node data_type_encode (r_datatype r));
     (["modifiedWriteValues"], opt_node mwv_encode (r_mwv r));
     (["writeConstraint"], opt_node wc_encode (r_write_constraint r));
     (["readAction"], opt_node read_action_encode (r_read_action r));
     (["fields"], fields)].
  (** Lists of elements whose parser is the inverse. *)
  Lemma list_round {A} (enc : A -> res xml) (parse : xml -> res A) (g : A -> A) (P : A -> Prop) xs ns :
    (forall a n, enc a = Ok n -> P (g a) -> parse n = Ok (g a)) -> mapM enc xs = Ok ns -> Forall P (map g xs) ->
    mapM parse ns = Ok (map g xs).
  Proof.
    intros H E F. apply mapM_ok in E. revert F. induction E as [|x n xs ns E _ IH]; [reflexivity|]. cbn [map mapM]. intros F.
    inversion F; subst. rewrite (H x n) by auto. cbn [bind]. now rewrite IH.
  Qed.
  Lemma tags_elements (enc_tag : string) ns : Forall (fun n => has_tag enc_tag n = true) ns -> filter is_element ns = ns.
  Proof. intros H. apply filter_all. eapply Forall_impl; [|exact H]. intros n T. now destruct n. Qed.
  Lemma mapM_forall {A B} (f : A -> res B) (P : B -> Prop) xs ns : (forall a b, f a = Ok b -> P b) -> mapM f xs = Ok ns -> Forall P ns.
  Proof. intros H E. apply mapM_ok in E. induction E; constructor; eauto. Qed.
  Lemma register_info_round r e fs : register_info_encode m conv cfg r = Ok e -> w_fields m conv cfg r = Ok fs ->
    register_fits l (w_register conv cfg r fs) ->
    encoded "register" e (fun _ => register_info_parse m' pcfg) (w_register conv cfg r fs).
  Proof.
    unfold register_info_encode. intros E Wf (F1 & F2 & F3 & F4 & F5 & F6 & F7 & F8 & F9 & V).
    apply bind_ok in E as (fields & B & E). injection E as <-.
    cbn [w_register r_name r_display_name r_description r_alternate_group r_alternate_register r_address_offset r_properties
      r_write_constraint r_fields] in F1, F2, F3, F4, F5, F6, F7, F8, F9.
    assert (X : well (["fields"], fields) /\ forall n, get_child "fields" n = find_first (has_tag "fields") fields ->
       mapM_opt (fun x => collect is_element (field_parse m' pcfg) (children x)) (get_child "fields" n) = Ok fs).
    { unfold w_fields in Wf. destruct (r_fields r) as [v|].
      - apply bind_ok in B as (sorted & S & B). rewrite S in Wf. cbn [bind] in Wf. injection Wf as <-.
        apply bind_ok in B as (ch & M & B). injection B as <-.
        destruct sorted as [|x sorted].
        + injection M as <-. split; [apply well_list; reflexivity|]. intros n ->. reflexivity.
        + assert (L : ch <> []) by (apply mapM_length in M; destruct ch; [discriminate|congruence]).
          destruct ch as [|c ch]; [congruence|]. cbn [is_nil]. split; [apply well_list; reflexivity|].
          intros n ->. cbn [find_first has_tag]. rewrite seqb_refl. cbn [mapM_opt children].
          rewrite collect_filter, (tags_elements "field") by (apply (mapM_forall _ _ _ _ field_tag M)).
          cbn [tidy_list map opt_all] in F9. destruct F9 as [_ F9].
          rewrite (list_round _ (field_parse m' pcfg) _ _ _ _ field_round M F9). reflexivity.
      - injection B as <-. injection Wf as <-. split; [apply well_list; reflexivity|]. intros n ->. reflexivity. }
    destruct X as [Xw X].
    apply Encoded with (f := cc conv (cfg_register_name cfg)) (d := r_derived_from r) (ps := register_pieces r fields);
      [reflexivity| |reflexivity|reflexivity|].
    { unfold register_pieces. wells; [apply rp_piece|exact Xw]. }
    intros n (T & D & W & K & C).
    unfold register_info_parse.
    rewrite (a_text n "name" (cc conv (cfg_register_name cfg) (r_name r))) by (exact F1 || kid). cbn [bind].
    rewrite (a_text_opt n "displayName" (r_display_name r)) by (exact F2 || kid). cbn [bind].
    rewrite (a_text_opt n "description" (r_description r)) by (exact F3 || kid). cbn [bind].
    rewrite (a_text_opt n "alternateGroup" (r_alternate_group r)) by (exact F4 || kid). cbn [bind].
    rewrite (a_text_opt n "alternateRegister" (option_map (cc conv (cfg_register_name cfg)) (r_alternate_register r)))
      by (exact F5 || (rewrite <- opt_map_node; kid)). cbn [bind].
    rewrite (a_u32 n "addressOffset" (cfg_register_address_offset cfg) (r_address_offset r)) by (exact F6 || kid). cbn [bind].
    rewrite (rp_round pcfg cfg n (r_properties r))
      by (exact F7 || (intros k I; rewrite K; destruct I as [<-|[<-|[<-|[<-|[<-|[]]]]]]; reflexivity)). cbn [bind].
    rewrite (a_opt n data_type_parse_node data_type_encode "dataType" (r_datatype r)) by (kid || apply all_opt, e_data_type). cbn [bind].
    rewrite (a_opt n mwv_parse_node mwv_encode "modifiedWriteValues" (r_mwv r)) by (kid || apply all_opt, e_mwv). cbn [bind].
    rewrite (a_opt n wc_parse wc_encode "writeConstraint" (r_write_constraint r))
      by (kid || (destruct (r_write_constraint r); [cbn in *; now apply wc_round|exact Logic.I])). cbn [bind].
    rewrite (a_opt n read_action_parse_node read_action_encode "readAction" (r_read_action r)) by (kid || apply all_opt, e_read_action).
    cbn [bind]. rewrite X by kid. rewrite D. cbn [bind].
    unfold register_build. cbn [rb_name rb_address_offset rb_properties required ok_or bind].
    apply rp_bind. split; [apply F7|]. apply validated_ok. split; [reflexivity|]. now apply register_validate_ok.
  Qed.
  Lemma register_round r n fs : register_encode m conv cfg r = Ok n -> w_fields m conv cfg (info r) = Ok fs ->
    any_fits l r_name (register_fits l) (w_any conv cfg (fun i => w_register conv cfg i fs) r) ->
    register_parse m' pcfg n = Ok (w_any conv cfg (fun i => w_register conv cfg i fs) r).
  Proof.
    intros E W. revert E. apply (ma_round "register" r_name (register_info_encode m conv cfg) (fun _ => register_info_parse m' pcfg)).
    intros e E F. now apply register_info_round.
  Qed.
  Lemma register_tag r n : register_encode m conv cfg r = Ok n -> has_tag "register" n = true.
  Proof. apply ma_tag. unfold register_info_encode. intros a e H. apply bind_ok in H as (b & _ & H). injection H as <-. reflexivity. Qed.

  (** ** Clusters *)
  Definition cluster_pieces (c : cluster_info) (kids : list xml) : list piece :=
    [(["name"], [new_node "name" (cc conv (cfg_cluster_name cfg) (c_name c))]);
     (["description"], opt_node (new_node "description") (c_description c));
     (["alternateCluster"], opt_node (fun v => new_node "alternateCluster" (cc conv (cfg_cluster_name cfg) v)) (c_alternate_cluster c));
     (["headerStructName"], opt_node (new_node "headerStructName") (c_header_struct_name c));
     (["addressOffset"], [num_node "addressOffset" (cfg_cluster_address_offset cfg) (c_address_offset c)]);
     (rp_tags, rp_encode cfg (c_default_properties c));
     (["register"; "cluster"], kids)].
  Lemma cluster_info_round c e kids rcs : cluster_info_encode conv cfg (Ok kids) c = Ok e ->
    well (["register"; "cluster"], kids) -> mapM (rc_parse m' pcfg) kids = Ok rcs ->
    cluster_fits l (w_cluster conv cfg c rcs) ->
    encoded "cluster" e (fun n => cluster_info_parse pcfg (collect is_rc (rc_parse m' pcfg) (children n))) (w_cluster conv cfg c rcs).
  Proof.
    unfold cluster_info_encode. cbn [bind]. intros E Wk Mk (F1 & F2 & F3 & F4 & F5 & F6 & V). injection E as <-.
    cbn [w_cluster c_name c_description c_alternate_cluster c_header_struct_name c_address_offset c_default_properties]
      in F1, F2, F3, F4, F5, F6.
    apply Encoded with (f := cc conv (cfg_cluster_name cfg)) (d := c_derived_from c) (ps := cluster_pieces c kids);
      [reflexivity| |reflexivity|reflexivity|].
    { unfold cluster_pieces. wells; [apply rp_piece|exact Wk]. }
    intros n (T & D & W & K & C). unfold cluster_info_parse.
    rewrite (a_text n "name" (cc conv (cfg_cluster_name cfg) (c_name c))) by (exact F1 || kid). cbn [bind].
    rewrite (a_text_opt n "description" (c_description c)) by (exact F2 || kid). cbn [bind].
    rewrite (a_text_opt n "alternateCluster" (option_map (cc conv (cfg_cluster_name cfg)) (c_alternate_cluster c)))
      by (exact F3 || (rewrite <- opt_map_node; kid)). cbn [bind].
    rewrite (a_text_opt n "headerStructName" (c_header_struct_name c)) by (exact F4 || kid). cbn [bind].
    rewrite (a_u32 n "addressOffset" (cfg_cluster_address_offset cfg) (c_address_offset c)) by (exact F5 || kid). cbn [bind].
    rewrite (rp_round pcfg cfg n (c_default_properties c))
      by (exact F6 || (intros k I; rewrite K; destruct I as [<-|[<-|[<-|[<-|[<-|[]]]]]]; reflexivity)). cbn [bind].
    rewrite collect_filter, C.
    2: { intros x E I. unfold is_rc. destruct x as [t a ch| |]; try discriminate. cbn [has_tag tag] in *.
         destruct I as [<-|[<-|[<-|[<-|[<-|[]]]]]]; reflexivity. }
    rewrite (pieces_filter _ (fun t => seqb t "register" || seqb t "cluster"))
      by (exact W || reflexivity || (intros x E; destruct x; try discriminate; reflexivity)).
    replace (keep _ _) with kids by (symmetry; apply app_nil_r).
    rewrite Mk, D. cbn [bind]. unfold cluster_build.
    cbn [cb_name cb_description cb_alternate_cluster cb_header_struct_name cb_address_offset cb_default_properties cb_children
      cb_derived_from required ok_or bind]. rewrite !str_tidy, !tidy_idem.
    apply rp_bind. split; [apply F6|]. apply validated_ok. split; [reflexivity|]. now apply cluster_validate_ok.
  Qed.
  Lemma rc_tag rc n : rc_encode m conv cfg rc = Ok n -> has_tag "register" n = true \/ has_tag "cluster" n = true.
  Proof.
    destruct rc as [r|c]; cbn [rc_encode]; intros H; [left; now apply register_tag in H|right].
    revert H. apply ma_tag. unfold cluster_info_encode. intros a e H. apply bind_ok in H as (ch & _ & H). injection H as <-. reflexivity.
  Qed.
  Lemma rc_kids_well rcs kids : mapM (rc_encode m conv cfg) rcs = Ok kids -> well (["register"; "cluster"], kids).
  Proof.
    intros M. apply well_tags. intros n I. apply mapM_ok in M. destruct (Forall2_in_r _ _ _ M _ I) as (rc & _ & E).
    destruct (rc_tag _ _ E); [exists "register"%string|exists "cluster"%string]; cbn; auto.
  Qed.
  Lemma rc_round rc : forall n rc', rc_encode m conv cfg rc = Ok n -> w_rc m conv cfg rc = Ok rc' -> rc_fits l rc' ->
    rc_parse m' pcfg n = Ok rc'.
  Proof.
    induction rc as [r|c IH] using rc_tree_ind; intros n rc' E W F.
    - cbn [w_rc] in W. apply bind_ok in W as (fs & Wf & W). injection W as <-. cbn [rc_encode] in E.
      inversion F as [r0 Fr|]; subst. pose proof (register_tag _ _ E) as T.
      destruct n as [t a ch| |]; try discriminate. cbn [has_tag] in T. cbn [rc_parse tag]. rewrite T.
      apply seqb_eq in T as ->. rewrite (register_round r _ fs E Wf Fr). reflexivity.
    - cbn [w_rc] in W. apply bind_ok in W as (rcs & Wk & W). injection W as <-. cbn [rc_encode] in E.
      inversion F as [|c0 Fc Fk]; subst.
      assert (Fk' : Forall (rc_fits l) rcs) by (destruct c; exact Fk). clear Fk. rename Fk' into Fk.
      assert (Mk : forall kids, mapM (rc_encode m conv cfg) (c_children (info c)) = Ok kids -> mapM (rc_parse m' pcfg) kids = Ok rcs).
      { intros kids Ek. apply mapM_ok in Ek, Wk. apply mapM_ok. clear - IH Ek Wk Fk.
        revert rcs Wk Fk. induction Ek as [|x k xs ks Ex _ IHk]; intros rcs Wk Fk; inversion Wk; subst; [constructor|].
        inversion IH; subst. inversion Fk; subst. constructor; eauto. }
      assert (T : has_tag "cluster" n = true).
      { revert E. apply ma_tag. unfold cluster_info_encode. intros a e H. apply bind_ok in H as (ch & _ & H). injection H as <-. reflexivity. }
      pose proof (ma_round "cluster" c_name (cluster_info_encode conv cfg (mapM (rc_encode m conv cfg) (c_children (info c))))
        (fun n => cluster_info_parse pcfg (collect is_rc (rc_parse m' pcfg) (children n))) (fun i => w_cluster conv cfg i rcs)
        (cluster_fits l) c n) as R.
      destruct n as [t a ch| |]; try discriminate. cbn [has_tag] in T. cbn [rc_parse tag]. apply seqb_eq in T as ->. seqbs.
      cbn [children] in R. rewrite R; [reflexivity| |exact E|exact Fc].
      intros e Ee Fe. unfold cluster_info_encode in Ee. apply bind_ok in Ee as (kids & Ek & Ee).
      apply (cluster_info_round _ e kids); [exact Ee|eapply rc_kids_well; exact Ek|now apply Mk|exact Fe].
  Qed.
  Lemma cluster_round c n c' : cluster_encode m conv cfg c = Ok n -> w_rc m conv cfg (RCCluster c) = Ok (RCCluster c') ->
    rc_fits l (RCCluster c') -> cluster_parse m' pcfg n = Ok c'.
  Proof.
    unfold cluster_encode. intros E W F. pose proof (rc_round _ _ _ E W F) as R.
    assert (T : has_tag "cluster" n = true).
    { revert E. cbn [rc_encode]. apply ma_tag. unfold cluster_info_encode. intros a e H. apply bind_ok in H as (ch & _ & H). injection H as <-. reflexivity. }
    destruct n as [t a ch| |]; try discriminate. cbn [has_tag] in T. cbn [rc_parse tag] in R. apply seqb_eq in T as ->.
    change (seqb "cluster" "register") with false in R. change (seqb "cluster" "cluster") with true in R. cbv iota zeta in R.
    unfold cluster_parse. cbn [children]. apply rmap_ok in R as (x & R & Q). injection Q as <-. exact R.
  Qed.

  (** ** Address blocks, interrupts, peripherals *)
  Lemma ab_round a : block_fits a -> ab_parse pcfg (ab_encode cfg a) = Ok a.
  Proof.
    intros (B1 & B2). unfold ab_parse.
    rewrite (a_u32 _ "offset" (cfg_address_block_offset cfg) (ab_offset a)) by (exact B1 || reflexivity). cbn [bind].
    rewrite (a_u32 _ "size" (cfg_address_block_size cfg) (ab_size a)) by (exact B2 || reflexivity). cbn [bind].
    replace (get_child_elem "usage" (ab_encode cfg a)) with (@Ok xml (ab_usage_encode (ab_use a))) by reflexivity. cbn [bind].
    rewrite e_ab_usage. cbn [bind].
    rewrite (a_opt _ protection_parse_node protection_encode "protection" (ab_protection a));
      [|apply find_opt; reflexivity|apply all_opt, e_protection].
    destruct a; reflexivity.
  Qed.
  Definition it_pieces (i : interrupt) : list piece :=
    [(["name"], [new_node "name" (cc conv (cfg_interrupt_name cfg) (it_name i))]);
     (["description"], opt_node (new_node "description") (it_description i));
     (["value"], [dec_node "value" (it_value i)])].
  Lemma it_round i : interrupt_fits (w_interrupt conv cfg i) -> it_parse pcfg (it_encode conv cfg i) = Ok (w_interrupt conv cfg i).
  Proof.
    assert (W : Forall well (it_pieces i)) by (unfold it_pieces; wells).
    pose proof (shows_single "interrupt" [] (it_pieces i) W eq_refl) as (T & _ & _ & K & _).
    change (Elem "interrupt" [] (flat (it_pieces i))) with (it_encode conv cfg i) in T, K.
    revert T K. generalize (it_encode conv cfg i) as n. intros n T K (F1 & F2 & F3). unfold it_parse, expect_tag.
    rewrite T. cbn [check bind].
    rewrite (a_text n "name" (it_name (w_interrupt conv cfg i))) by (exact F1 || kid). cbn [bind].
    rewrite (a_text_opt n "description" (it_description i)) by (exact F2 || kid). cbn [bind].
    rewrite (a_u32 n "value" Dec (it_value i)) by (exact F3 || kid). reflexivity.
  Qed.
  Definition peripheral_pieces (p : peripheral_info) (registers : list xml) : list piece :=
    let name v := cc conv (cfg_peripheral_name cfg) v in
    [(["name"], [new_node "name" (name (p_name p))]);
     (["displayName"], opt_node (new_node "displayName") (p_display_name p));
     (["version"], opt_node (new_node "version") (p_version p));
     (["description"], opt_node (new_node "description") (p_description p));
     (["alternatePeripheral"], opt_node (fun v => new_node "alternatePeripheral" (name v)) (p_alternate_peripheral p));
     (["groupName"], opt_node (new_node "groupName") (p_group_name p));
     (["prependToName"], opt_node (fun v => new_node "prependToName" (name v)) (p_prepend_to_name p));
     (["appendToName"], opt_node (fun v => new_node "appendToName" (name v)) (p_append_to_name p));
     (["headerStructName"], opt_node (fun v => new_node "headerStructName" (name v)) (p_header_struct_name p));
     (["baseAddress"], [num_node "baseAddress" (cfg_peripheral_base_address cfg) (p_base_address p)]);
     (rp_tags, rp_encode cfg (p_default_properties p));
     (["addressBlock"], map (ab_encode cfg) (opt_default [] (p_address_block p)));
     (["interrupt"], map (it_encode conv cfg) (p_interrupt p));
     (["registers"], registers)].
  Lemma rcs_round rcs kids rcs' : mapM (rc_encode m conv cfg) rcs = Ok kids -> mapM (w_rc m conv cfg) rcs = Ok rcs' ->
    Forall (rc_fits l) rcs' -> collect is_element (rc_parse m' pcfg) kids = Ok rcs'.
  Proof.
    intros E W F. rewrite collect_filter, filter_all.
    - apply mapM_ok in E, W. apply mapM_ok. revert rcs' W F. induction E as [|x k xs ks Ex _ IH]; intros rcs' W F; inversion W; subst; [constructor|].
      inversion F; subst. constructor; eauto using rc_round.
    - apply (mapM_forall _ _ _ _ (fun a b H => match rc_tag a b H with
        | or_introl T | or_intror T => match b as b return has_tag _ b = true -> is_element b = true with Elem _ _ _ => fun _ => eq_refl | _ => fun T => T end T
        end) E).
  Qed.
  Lemma peripheral_info_round p e rs : peripheral_info_encode m conv cfg p = Ok e -> w_registers m conv cfg p = Ok rs ->
    peripheral_fits l (w_peripheral conv cfg p rs) ->
    encoded "peripheral" e (fun _ => peripheral_info_parse m' pcfg) (w_peripheral conv cfg p rs).
  Proof.
    unfold peripheral_info_encode. intros E Wr (F1 & F2 & F3 & F4 & F5 & F6 & F7 & F8 & F9 & F10 & F11 & F12 & F13 & F14 & V).
    apply bind_ok in E as (registers & B & E). cbv zeta in E. injection E as <-.
    cbn [w_peripheral p_name p_display_name p_version p_description p_alternate_peripheral p_group_name p_prepend_to_name
      p_append_to_name p_header_struct_name p_base_address p_default_properties p_address_block p_interrupt p_registers]
      in F1, F2, F3, F4, F5, F6, F7, F8, F9, F10, F11, F12, F13, F14.
    assert (X : well (["registers"], registers) /\ forall n, get_child "registers" n = find_first (has_tag "registers") registers ->
       mapM_opt (fun x => collect is_element (rc_parse m' pcfg) (children x)) (get_child "registers" n) = Ok rs).
    { unfold w_registers in Wr. destruct (p_registers p) as [v|].
      - apply bind_ok in B as (sorted & S & B). rewrite S in Wr. cbn [bind] in Wr. apply bind_ok in Wr as (rcs & Wr & Q). injection Q as <-.
        apply bind_ok in B as (ch & M & B). injection B as <-. split; [apply well_list; reflexivity|].
        intros n ->. cbn [find_first has_tag]. rewrite seqb_refl. cbn [mapM_opt children].
        rewrite (rcs_round sorted ch rcs M Wr F14). reflexivity.
      - injection B as <-. injection Wr as <-. split; [apply well_list; reflexivity|]. intros n ->. reflexivity. }
    destruct X as [Xw X].
    apply Encoded with (f := cc conv (cfg_peripheral_name cfg)) (d := p_derived_from p) (ps := peripheral_pieces p registers);
      [reflexivity| |reflexivity|reflexivity|].
    { unfold peripheral_pieces. wells; [apply rp_piece|exact Xw]. }
    intros n (T & D & W & K & C). unfold peripheral_info_parse, expect_tag. rewrite T. cbn [check bind].
    rewrite (a_text n "name" (cc conv (cfg_peripheral_name cfg) (p_name p))) by (exact F1 || kid). cbn [bind].
    rewrite (a_text_opt n "displayName" (p_display_name p)) by (exact F2 || kid). cbn [bind].
    rewrite (a_text_opt n "version" (p_version p)) by (exact F3 || kid). cbn [bind].
    rewrite (a_text_opt n "description" (p_description p)) by (exact F4 || kid). cbn [bind].
    rewrite (a_text_opt n "alternatePeripheral" (option_map (cc conv (cfg_peripheral_name cfg)) (p_alternate_peripheral p)))
      by (exact F5 || (rewrite <- opt_map_node; kid)). cbn [bind].
    rewrite (a_text_opt n "groupName" (p_group_name p)) by (exact F6 || kid). cbn [bind].
    rewrite (a_text_opt n "prependToName" (option_map (cc conv (cfg_peripheral_name cfg)) (p_prepend_to_name p)))
      by (exact F7 || (rewrite <- opt_map_node; kid)). cbn [bind].
    rewrite (a_text_opt n "appendToName" (option_map (cc conv (cfg_peripheral_name cfg)) (p_append_to_name p)))
      by (exact F8 || (rewrite <- opt_map_node; kid)). cbn [bind].
    rewrite (a_text_opt n "headerStructName" (option_map (cc conv (cfg_peripheral_name cfg)) (p_header_struct_name p)))
      by (exact F9 || (rewrite <- opt_map_node; kid)). cbn [bind].
    rewrite (a_u64 n "baseAddress" (cfg_peripheral_base_address cfg) (p_base_address p)) by (exact F10 || kid). cbn [bind].
    rewrite (rp_round pcfg cfg n (p_default_properties p))
      by (exact F11 || (intros k I; rewrite K; destruct I as [<-|[<-|[<-|[<-|[<-|[]]]]]]; reflexivity)). cbn [bind].
    rewrite collect_filter, (tag_filter "addressBlock" n _ W C) by reflexivity.
    replace (keep _ _) with (map (ab_encode cfg) (opt_default [] (p_address_block p))) by (symmetry; apply app_nil_r).
    assert (Y : mapM (ab_parse pcfg) (map (ab_encode cfg) (opt_default [] (p_address_block p))) = Ok (opt_default [] (p_address_block p))).
    { rewrite <- (map_id (opt_default [] (p_address_block p))) at 2. apply (map_round _ _ (fun x => x) block_fits); [intros; now apply ab_round|].
      rewrite map_id. destruct (p_address_block p) as [[|]|]; cbn in *; [constructor|apply F12|constructor]. }
    rewrite Y. cbn [bind].
    rewrite collect_filter, (tag_filter "interrupt" n _ W C) by reflexivity.
    replace (keep _ _) with (map (it_encode conv cfg) (p_interrupt p)) by (symmetry; apply app_nil_r).
    rewrite (map_round _ _ (w_interrupt conv cfg) interrupt_fits _ it_round F13). cbn [bind].
    rewrite X by kid. rewrite D. cbn [bind].
    unfold peripheral_build. cbn [pb_name pb_display_name pb_version pb_description
      pb_alternate_peripheral pb_group_name pb_prepend_to_name pb_append_to_name pb_header_struct_name
      pb_base_address pb_default_properties pb_address_block pb_interrupt pb_registers pb_derived_from required ok_or bind opt_default].
    rewrite !str_tidy, !tidy_idem. apply rp_bind. split; [apply F11|].
    replace (if is_nil (opt_default [] (p_address_block p)) then None else Some (opt_default [] (p_address_block p)))
      with (tidy_list (p_address_block p)) by (destruct (p_address_block p) as [[|]|]; reflexivity).
    apply validated_ok. split; [reflexivity|]. now apply peripheral_validate_ok.
  Qed.
  Lemma peripheral_round p n p' : peripheral_encode m conv cfg p = Ok n -> w_peripheral_any m conv cfg p = Ok p' ->
    any_fits l p_name (peripheral_fits l) p' -> peripheral_parse m' pcfg n = Ok p'.
  Proof.
    intros E W. unfold w_peripheral_any in W. apply bind_ok in W as (rs & Wr & W). injection W as <-. revert E.
    apply (ma_round "peripheral" p_name (peripheral_info_encode m conv cfg) (fun _ => peripheral_info_parse m' pcfg)).
    intros e E F. now apply peripheral_info_round.
  Qed.
  Lemma peripheral_tag p n : peripheral_encode m conv cfg p = Ok n -> has_tag "peripheral" n = true.
  Proof. apply ma_tag. unfold peripheral_info_encode. intros a e H. apply bind_ok in H as (b & _ & H). injection H as <-. reflexivity. Qed.

  (** ** The cpu and the device *)
  Definition cpu_pieces (c : cpu) : list piece :=
    [(["name"; "revision"; "endian"; "mpuPresent"; "fpuPresent"],
      [new_node "name" (cpu_name c); new_node "revision" (cpu_revision c); endian_encode (cpu_endian c);
       bool_node "mpuPresent" (cpu_mpu_present c); bool_node "fpuPresent" (cpu_fpu_present c)]);
     (["fpuDP"], opt_node (bool_node "fpuDP") (cpu_fpu_double_precision c));
     (["dspPresent"], opt_node (bool_node "dspPresent") (cpu_dsp_present c));
     (["icachePresent"], opt_node (bool_node "icachePresent") (cpu_icache_present c));
     (["dcachePresent"], opt_node (bool_node "dcachePresent") (cpu_dcache_present c));
     (["itcmPresent"], opt_node (bool_node "itcmPresent") (cpu_itcm_present c));
     (["dtcmPresent"], opt_node (bool_node "dtcmPresent") (cpu_dtcm_present c));
     (["vtorPresent"], opt_node (bool_node "vtorPresent") (cpu_vtor_present c));
     (["nvicPrioBits"; "vendorSystickConfig"],
      [dec_node "nvicPrioBits" (cpu_nvic_priority_bits c); bool_node "vendorSystickConfig" (cpu_has_vendor_systick c)]);
     (["deviceNumInterrupts"], opt_node (dec_node "deviceNumInterrupts") (cpu_device_num_interrupts c));
     (["sauNumRegions"], opt_node (dec_node "sauNumRegions") (cpu_sau_num_regions c))].
  Lemma cpu_round c : cpu_fits c -> cpu_parse pcfg (cpu_encode c) = Ok c.
  Proof.
    assert (W : Forall well (cpu_pieces c)) by (unfold cpu_pieces; wells).
    pose proof (shows_single "cpu" [] (cpu_pieces c) W eq_refl) as (T & _ & _ & K & _).
    change (Elem "cpu" [] (flat (cpu_pieces c))) with (cpu_encode c) in T, K.
    revert T K. generalize (cpu_encode c) as n. intros n T K (F1 & F2 & F3 & F4 & F5). unfold cpu_parse, expect_tag.
    rewrite T. cbn [check bind].
    rewrite (a_text n "name" (cpu_name c)) by (exact F1 || kid). cbn [bind].
    rewrite (a_text n "revision" (cpu_revision c)) by (exact F2 || kid). cbn [bind].
    unfold get_child_elem at 1. replace (get_child "endian" n) with (Some (endian_encode (cpu_endian c))) by (symmetry; kid).
    cbn [ok_or bind]. rewrite e_endian. cbn [bind].
    rewrite (a_bool n "mpuPresent" (cpu_mpu_present c)) by kid. cbn [bind].
    rewrite (a_bool n "fpuPresent" (cpu_fpu_present c)) by kid. cbn [bind].
    rewrite (a_opt_bool n "fpuDP" (cpu_fpu_double_precision c)) by kid. cbn [bind].
    rewrite (a_opt_bool n "dspPresent" (cpu_dsp_present c)) by kid. cbn [bind].
    rewrite (a_opt_bool n "icachePresent" (cpu_icache_present c)) by kid. cbn [bind].
    rewrite (a_opt_bool n "dcachePresent" (cpu_dcache_present c)) by kid. cbn [bind].
    rewrite (a_opt_bool n "itcmPresent" (cpu_itcm_present c)) by kid. cbn [bind].
    rewrite (a_opt_bool n "dtcmPresent" (cpu_dtcm_present c)) by kid. cbn [bind].
    rewrite (a_opt_bool n "vtorPresent" (cpu_vtor_present c)) by kid. cbn [bind].
    rewrite (a_u32 n "nvicPrioBits" Dec (cpu_nvic_priority_bits c)) by (exact F3 || kid). cbn [bind].
    rewrite (a_bool n "vendorSystickConfig" (cpu_has_vendor_systick c)) by kid. cbn [bind].
    rewrite (a_opt_num n pow32 "deviceNumInterrupts" Dec (cpu_device_num_interrupts c)) by (exact F4 || kid). cbn [bind].
    rewrite (a_opt_num n pow32 "sauNumRegions" Dec (cpu_sau_num_regions c)) by (exact F5 || kid). cbn [bind].
    destruct c; reflexivity.
  Qed.
  Definition device_pieces (d : device) (pers : list xml) : list piece :=
    [(["vendor"], opt_node (new_node "vendor") (d_vendor d));
     (["vendorID"], opt_node (new_node "vendorID") (d_vendor_id d));
     (["name"], [new_node "name" (d_name d)]);
     (["series"], opt_node (new_node "series") (d_series d));
     (["version"; "description"], [new_node "version" (d_version d); new_node "description" (d_description d)]);
     (["licenseText"], opt_node (new_node "licenseText") (d_license_text d));
     (["cpu"], opt_node cpu_encode (d_cpu d));
     (["headerSystemFilename"], opt_node (new_node "headerSystemFilename") (d_header_system_filename d));
     (["headerDefinitionsPrefix"], opt_node (new_node "headerDefinitionsPrefix") (d_header_definitions_prefix d));
     (["addressUnitBits"; "width"], [dec_node "addressUnitBits" (d_address_unit_bits d); dec_node "width" (d_width d)]);
     (rp_tags, rp_encode cfg (d_default_properties d));
     (["peripherals"], [Elem "peripherals" [] pers])].
  Lemma device_round d n d' : device_encode m conv cfg d = Ok n -> w_device m conv cfg d = Ok d' -> device_fits l d' ->
    device_parse m' pcfg n = Ok d'.
  Proof.
    unfold device_encode, w_device. intros E Wd F. apply bind_ok in E as (sorted & S & E). apply bind_ok in E as (pers & P & E).
    rewrite S in Wd. cbn [bind] in Wd. apply bind_ok in Wd as (ps & Wp & Wd). injection Wd as <-. injection E as <-.
    destruct F as (F1 & F2 & F3 & F4 & F5 & F6 & F7 & F8 & F9 & F10 & F11 & F12 & F13 & F14 & V).
    cbn [d_vendor d_vendor_id d_name d_series d_version d_description d_license_text d_cpu d_header_system_filename
      d_header_definitions_prefix d_address_unit_bits d_width d_default_properties d_peripherals]
      in F1, F2, F3, F4, F5, F6, F7, F8, F9, F10, F11, F12, F13, F14.
    assert (W : Forall well (device_pieces d pers)) by (unfold device_pieces; wells; apply rp_piece).
    set (at0 := [("schemaVersion", _); _; _]).
    pose proof (shows_single "device" at0 (device_pieces d pers) W eq_refl) as (T & _ & _ & K & _).
    match goal with |- device_parse _ _ ?x = _ => change x with (Elem "device" at0 (flat (device_pieces d pers))); set (n := x) in * end.
    change (Elem "device" at0 (flat (device_pieces d pers))) with n in T, K |- *.
    assert (A1 : attr "schemaVersion" n = Some (d_schema_version d)) by reflexivity.
    assert (A2 : attr "xmlns:xs" n = Some (d_xmlns_xs d)) by reflexivity.
    assert (A3 : attr "xs:noNamespaceSchemaLocation" n = Some (d_no_namespace_schema_location d)) by reflexivity.
    clearbody n. clear at0. unfold device_parse, expect_tag. rewrite T. cbn [check bind].
    rewrite (a_text_opt n "vendor" (d_vendor d)) by (exact F1 || kid). cbn [bind].
    rewrite (a_text_opt n "vendorID" (d_vendor_id d)) by (exact F2 || kid). cbn [bind].
    rewrite (a_text n "name" (d_name d)) by (exact F3 || kid). cbn [bind].
    rewrite (a_text_opt n "series" (d_series d)) by (exact F4 || kid). cbn [bind].
    rewrite (a_text_opt n "licenseText" (d_license_text d)) by (exact F7 || kid). cbn [bind].
    rewrite (a_opt n (cpu_parse pcfg) cpu_encode "cpu" (d_cpu d))
      by (kid || (destruct (d_cpu d); [cbn in *; now apply cpu_round|exact Logic.I])). cbn [bind].
    rewrite (a_text_opt n "headerSystemFilename" (d_header_system_filename d)) by (exact F9 || kid). cbn [bind].
    rewrite (a_text_opt n "headerDefinitionsPrefix" (d_header_definitions_prefix d)) by (exact F10 || kid). cbn [bind].
    rewrite (rp_round pcfg cfg n (d_default_properties d))
      by (exact F13 || (intros k I; rewrite K; destruct I as [<-|[<-|[<-|[<-|[<-|[]]]]]]; reflexivity)). cbn [bind].
    unfold get_child_elem at 1. replace (get_child "peripherals" n) with (Some (Elem "peripherals" [] pers)) by (symmetry; kid).
    cbn [ok_or bind children].
    assert (X : collect is_element (peripheral_parse m' pcfg) pers = Ok ps).
    { rewrite collect_filter, (tags_elements "peripheral") by (apply (mapM_forall _ _ _ _ peripheral_tag P)).
      apply mapM_ok in P, Wp. apply mapM_ok. clear - P Wp F14 Henums. revert ps Wp F14.
      induction P as [|x k xs ks Ex _ IH]; intros ps Wp F; inversion Wp; subst; [constructor|].
      inversion F; subst. constructor; eauto using peripheral_round. }
    rewrite X. cbn [bind].
    rewrite (a_text_opt n "version" (Some (d_version d)))
      by (kid || (cbn [tidy_text]; destruct F5 as [N5 T5]; destruct (d_version d); [congruence|split; assumption])). cbn [bind].
    rewrite (a_text_opt n "description" (Some (d_description d)))
      by (kid || (destruct F6 as [[N6 T6]|[_ ->]]; [destruct (d_description d); [congruence|split; assumption]|exact Logic.I])). cbn [bind].
    rewrite (a_opt_num n pow32 "addressUnitBits" Dec (Some (d_address_unit_bits d))) by (exact F11 || kid). cbn [bind].
    rewrite (a_opt_num n pow32 "width" Dec (Some (d_width d))) by (exact F12 || kid). cbn [bind].
    rewrite A1, A2, A3. cbn [is_some]. unfold device_build.
    cbn [db_vendor db_vendor_id db_name db_series db_version db_description db_license_text db_cpu db_header_system_filename
      db_header_definitions_prefix db_address_unit_bits db_width db_default_properties db_peripherals db_xmlns_xs
      db_no_namespace_schema_location db_schema_version].
    assert (U5 : unless_strict l "1.0" (tidy_text (Some (d_version d))) = Some (d_version d)).
    { destruct F5 as [N5 _]. unfold unless_strict. destruct (d_version d); [congruence|]. cbn [tidy_text]. now destruct (is_strict l). }
    assert (U6 : unless_strict l "" (tidy_text (Some (d_description d))) = Some (d_description d)).
    { unfold unless_strict. destruct F6 as [[N6 _]|[NS ->]].
      - destruct (d_description d); [congruence|]. cbn [tidy_text]. now destruct (is_strict l).
      - cbn [tidy_text]. destruct (is_strict l) eqn:Q; [apply strict_iff in Q; congruence|reflexivity]. }
    fold l. rewrite U5, U6. cbn [required ok_or bind].
    replace (unless_strict l 8 (Some (d_address_unit_bits d))) with (Some (d_address_unit_bits d)) by (unfold unless_strict; now destruct (is_strict l)).
    replace (unless_strict l 32 (Some (d_width d))) with (Some (d_width d)) by (unfold unless_strict; now destruct (is_strict l)).
    cbn [required ok_or bind]. apply rp_bind. split; [apply F13|]. cbn [opt_default].
    apply validated_ok. split; [reflexivity|]. now apply device_validate_ok.
  Qed.
End Round.
