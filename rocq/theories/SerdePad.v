(** C66: foreign keys are ignored. *)
From Verif Require Import Base BaseFacts Types Arrays Serde SpecSerde SpecData SerdeMore.
Import ListNotations.

Scheme pd_ind := Induction for padded Sort Prop with pe_ind := Induction for padded_entries Sort Prop.
Lemma padded_entries_refl es : padded_entries es es.
Proof. induction es as [|[k v] es IH]; constructor; [apply pd_same|exact IH]. Qed.
Lemma padded_map es es' : padded (DMap es) (DMap es') -> padded_entries es es'.
Proof. intros S. inversion S; subst; [apply padded_entries_refl|repeat (constructor; try assumption)|assumption]. Qed.
Lemma padded_keys es es' k : In k format_keys -> padded_entries es es' -> (In k (map fst es) <-> In k (map fst es')).
Proof.
  intros I. induction 1 as [|k' v v' es es' _ _ IH|k' v es es' N _ IH]; [reflexivity|cbn [map fst In]; now rewrite IH|].
  cbn [map fst In]. rewrite IH. split; [tauto|]. intros [->|H]; [now destruct N|exact H].
Qed.
Lemma entry_pad {A} k (f : data -> res A) es es' : In k format_keys -> padded (DMap es) (DMap es') ->
  (forall v v', In (k, v) es -> padded v v' -> f v = f v') -> entry k f es = entry k f es'.
Proof.
  intros I S. apply padded_map in S. induction S as [|k' v v' es es' P S IH|k' v es es' N S IH]; intros H; [reflexivity| |].
  - cbn [entry]. destruct (seqb k' k) eqn:E.
    + apply seqb_eq in E as ->. rewrite (H v v') by (now left || exact P). now rewrite (has_key_ext k es es') by now apply padded_keys.
    + apply IH. intros w w' J. apply H. now right.
  - cbn [entry]. destruct (seqb k' k) eqn:E; [apply seqb_eq in E as ->; now destruct N|]. now apply IH.
Qed.
Definition blind {A} (f : data -> res A) : Prop := forall v v', padded v v' -> f v = f v'.
Lemma format_key k : existsb (seqb k) format_keys = true -> In k format_keys.
Proof. intros H. apply existsb_exists in H as (x & I & E). now apply seqb_eq in E as ->. Qed.
Ltac listed := apply format_key; vm_compute; reflexivity.
Lemma need_pad {A} k (f : data -> res A) es es' : In k format_keys -> padded (DMap es) (DMap es') ->
  (forall v v', In (k, v) es -> padded v v' -> f v = f v') -> need k f es = need k f es'.
Proof. intros I S H. unfold need. now rewrite (entry_pad k f es es'). Qed.
Lemma opt_pad {A} (f : data -> res A) v v' : padded v v' -> f v = f v' -> opt f v = opt f v'.
Proof. intros S H. unfold opt. destruct S; first [reflexivity | now rewrite H]. Qed.
Lemma take_pad {A} k (f : data -> res A) es es' : In k format_keys -> padded (DMap es) (DMap es') ->
  (forall v v', In (k, v) es -> padded v v' -> f v = f v') -> take_opt k f es = take_opt k f es'.
Proof. intros K S H. unfold take_opt. rewrite (entry_pad k (opt f) es es'); [reflexivity|exact K|exact S|]. intros v v' I D. apply opt_pad; auto. Qed.
Lemma seq_pad {A} (f : data -> res A) v v' : padded v v' ->
  (forall l x x', v = DSeq l -> In x l -> padded x x' -> f x = f x') -> seq_of f v = seq_of f v'.
Proof.
  intros S H. destruct S as [|l l' F| |]; try reflexivity. cbn [seq_of]. specialize (H l). revert H.
  induction F as [|x x' l l' D F IH]; intros H; [reflexivity|]. cbn [mapM].
  rewrite (H x x') by (reflexivity || now left || exact D). destruct (f x'); [|reflexivity|reflexivity]. cbn [bind].
  rewrite IH; [reflexivity|]. intros y y' _ I. apply H; [reflexivity|now right].
Qed.
Lemma take_list_pad {A} k (f : data -> res A) es es' : In k format_keys -> padded (DMap es) (DMap es') ->
  (forall l x x', In (k, DSeq l) es -> In x l -> padded x x' -> f x = f x') -> take_list k f es = take_list k f es'.
Proof.
  intros K S H. unfold take_list. rewrite (entry_pad k (seq_of f) es es'); [reflexivity|exact K|exact S|].
  intros v v' I D. apply seq_pad; [exact D|]. intros l x x' -> J. eauto.
Qed.
Lemma struct_pad {A} (f : entries -> res A) v v' : padded v v' ->
  (forall es es', v = DMap es -> padded (DMap es) (DMap es') -> f es = f es') -> struct f v = struct f v'.
Proof. intros S H. destruct S as [|l l' F|k v v' P|es es' N P]; try reflexivity; cbn [struct]; (apply H; [reflexivity|]); [now apply pd_variant|now apply pd_map]. Qed.
Lemma pad_combine ks l l' : Forall2 padded l l' -> padded_entries (combine ks l) (combine ks l').
Proof. intros F. revert ks. induction F as [|x x' l l' D F IH]; intros [|k ks]; cbn [combine]; constructor; auto. Qed.
Lemma struct_of_pad {A} ks (f : entries -> res A) v v' : (forall k, In k tag_keys -> ~ In k ks) -> padded v v' ->
  (forall es es', padded (DMap es) (DMap es') -> f es = f es') -> struct_of ks f v = struct_of ks f v'.
Proof.
  intros T S H. destruct S as [|l l' F|k v v' P|es es' N P]; try reflexivity; cbn [struct_of].
  - replace (List.length l') with (List.length l) by (clear - F; induction F; cbn; congruence).
    destruct (Nat.leb _ _); [|reflexivity]. apply H, pd_map; [|now apply pad_combine].
    intros k I J. apply (T k I). apply in_map_iff in J as ([k' v] & <- & J). now apply in_combine_l in J.
  - apply H. now apply pd_variant.
  - apply H. now apply pd_map.
Qed.
Ltac untagged := let I := fresh in let J := fresh in intros ? I J; cbv [In tag_keys] in I;
  repeat (destruct I as [<-|I]; [cbn in J; repeat (destruct J as [J|J]; [discriminate J|]); exact J|]); destruct I.
Lemma blind_str : blind get_str. Proof. now intros ? ? []. Qed.
Lemma blind_bool : blind get_bool. Proof. now intros ? ? []. Qed.
Lemma blind_num b : blind (get_num b). Proof. now intros ? ? []. Qed.
Lemma blind_variant {A} (p : string -> option A) : blind (variant p). Proof. now intros ? ? []. Qed.
Lemma blind_opt {A} (f : data -> res A) : blind f -> blind (opt f).
Proof. intros H v v' S. apply opt_pad; auto. Qed.
Lemma blind_seq {A} (f : data -> res A) : blind f -> blind (seq_of f).
Proof. intros H v v' S. apply seq_pad; auto. Qed.
Ltac pads := repeat match goal with
  | H : blind ?f |- ?f _ = ?f _ => apply H; assumption
  | |- ?x = ?x => reflexivity
  | |- bind _ _ = bind _ _ => apply bind_same; [|intros ?]
  | |- need _ _ _ = need _ _ _ => apply need_pad; [listed|assumption|intros ? ? _ ?]
  | |- take_opt _ _ _ = take_opt _ _ _ => apply take_pad; [listed|assumption|intros ? ? _ ?]
  | |- take_list _ _ _ = take_list _ _ _ => apply take_list_pad; [listed|assumption|intros ? ? ? _ _ ?]
  | |- seq_of _ _ = seq_of _ _ => apply blind_seq; [|assumption]
  | |- struct _ _ = struct _ _ => apply struct_pad; [assumption|intros ? ? _ ?]
  | |- struct_of _ _ _ = struct_of _ _ _ => apply struct_of_pad; [untagged|assumption|intros ? ? ?]
  | |- get_str _ = _ => now apply blind_str
  | |- get_bool _ = _ => now apply blind_bool
  | |- get_u32 _ = _ => now apply blind_num
  | |- get_u64 _ = _ => now apply blind_num
  | |- blind _ => assumption
  | |- get_access _ = _ => now apply blind_variant
  | |- get_usage _ = _ => now apply blind_variant
  | |- get_protection _ = _ => now apply blind_variant
  | |- get_mwv _ = _ => now apply blind_variant
  | |- get_read_action _ = _ => now apply blind_variant
  | |- get_endian _ = _ => now apply blind_variant
  | |- get_ab_usage _ = _ => now apply blind_variant
  | |- get_data_type _ = _ => now apply blind_variant
  end.
Lemma rp_pad es es' : padded (DMap es) (DMap es') -> rp_get es = rp_get es'.
Proof. intros S. unfold rp_get. pads. Qed.
Lemma blind_ev : blind ev_get. Proof. intros v v' S. unfold ev_get. pads. Qed.
Lemma blind_evs : blind evs_get. Proof. intros v v' S. pose proof blind_ev. unfold evs_get. pads. Qed.
Lemma blind_dai : blind dai_get. Proof. intros v v' S. pose proof blind_ev. unfold dai_get. pads. Qed.
Lemma blind_index : blind dim_index_get.
Proof.
  intros v v' S. unfold dim_index_get. apply opt_pad; [exact S|]. rewrite (blind_seq _ blind_str v v' S).
  destruct (seq_of get_str v'); pads.
Qed.
(** An externally tagged enum. *)
Lemma tagged_pad {A} (f : string -> data -> res A) v v' : padded v v' ->
  (forall k w, ~ In k tag_keys -> f k w = Err EDeserialize) ->
  (forall k w w', v = DMap [(k, w)] -> padded w w' -> f k w = f k w') ->
  match v with DMap [(k, w)] => f k w | _ => Err EDeserialize end =
  match v' with DMap [(k, w)] => f k w | _ => Err EDeserialize end.
Proof.
  intros S N H. destruct S as [v|l l' F|k v v' P|es es' T P]; [reflexivity|reflexivity|now apply H|].
  assert (X : forall k w, In k (map fst es) -> f k w = Err EDeserialize).
  { intros k w I. apply N. intros J. now apply (T k J). }
  transitivity (@Err A EDeserialize).
  - destruct es as [|[k w] [|]]; try reflexivity. apply X. now left.
  - destruct es' as [|[k w] [|]]; try reflexivity. symmetry. inversion P as [|? ? ? ? ? P1 P2|? ? ? ? K P2]; subst.
    + apply X. now left.
    + apply N. intros J. apply K. clear - J. destruct J as [<-|[<-|[<-|[<-|[<-|[]]]]]]; listed.
Qed.
Lemma blind_wc : blind wc_get.
Proof.
  intros v v' S. unfold wc_get.
  apply (tagged_pad (fun k v => if seqb k "writeAsRead" then let* b := get_bool v in Ok (WriteAsRead b)
      else if seqb k "useEnumeratedValues" then let* b := get_bool v in Ok (UseEnumeratedValues b)
      else if seqb k "range" then
        struct_of range_keys (fun es => let* lo := need "minimum" get_u64 es in let* hi := need "maximum" get_u64 es in Ok (WcRange lo hi)) v
      else Err EDeserialize) v v' S).
  { intros k w N. repeat (destruct (seqb k _) eqn:E; [apply seqb_eq in E as ->; exfalso; apply N; cbv [In tag_keys]; tauto|clear E]). reflexivity. }
  intros k w w' _ D. destruct (seqb k _); [pads|]. destruct (seqb k _); [pads|]. destruct (seqb k _); pads.
Qed.
Lemma de_pad es es' : padded (DMap es) (DMap es') -> de_get es = de_get es'.
Proof. intros S. pose proof blind_index. pose proof blind_dai. unfold de_get. pads. Qed.
Lemma blind_ab : blind ab_get. Proof. intros v v' S. unfold ab_get. pads. Qed.
Lemma blind_it : blind it_get. Proof. intros v v' S. unfold it_get. pads. Qed.
Lemma blind_cpu : blind cpu_get. Proof. intros v v' S. unfold cpu_get. pads. Qed.
Lemma ma_pad {A} (get : entries -> res A) v v' : padded v v' ->
  (forall es es', v = DMap es -> padded (DMap es) (DMap es') -> get es = get es') -> ma_get get v = ma_get get v'.
Proof.
  intros S H. unfold ma_get. apply struct_pad; [exact S|]. intros es es' E D. rewrite (de_pad es es' D), (H es es' E D). reflexivity.
Qed.
Section Same.
  Variable m : mode.
  Lemma br_pad es es' : padded (DMap es) (DMap es') -> br_get m es = br_get m es'.
  Proof.
    intros S. unfold br_get.
    rewrite (need_pad "bitRange" get_str es es' ltac:(listed) S) by (intros; now apply blind_str).
    rewrite (need_pad "bitOffset" get_u32 es es' ltac:(listed) S) by (intros; now apply blind_num).
    rewrite (need_pad "bitWidth" get_u32 es es' ltac:(listed) S) by (intros; now apply blind_num).
    rewrite (need_pad "lsb" get_u32 es es' ltac:(listed) S) by (intros; now apply blind_num).
    now rewrite (need_pad "msb" get_u32 es es' ltac:(listed) S) by (intros; now apply blind_num).
  Qed.
  Lemma field_pad es es' : padded (DMap es) (DMap es') -> field_get m es = field_get m es'.
  Proof. intros S. pose proof blind_wc. pose proof blind_evs. unfold field_get. pads. now apply br_pad. Qed.
  Lemma register_pad es es' : padded (DMap es) (DMap es') -> register_get m es = register_get m es'.
  Proof.
    intros S. pose proof blind_wc. unfold register_get.
    assert (blind (ma_get (field_get m))) by (intros v v' D; apply ma_pad; [exact D|intros; now apply field_pad]).
    pads. now apply rp_pad.
  Qed.
  Lemma rc_pad : blind (rc_get m).
  Proof.
    intros v. induction v as [v IH] using rc_data_ind. intros v' S. rewrite !rc_get_eq. apply tagged_pad; [exact S| |].
    { intros k w N. unfold rc_tagged. repeat (destruct (seqb k _) eqn:E; [apply seqb_eq in E as ->; exfalso; apply N; cbv [In tag_keys]; tauto|clear E]). reflexivity. }
    intros k w w' -> D. unfold rc_tagged. destruct (seqb k "register").
    - apply bind_same; [|reflexivity]. apply ma_pad; [exact D|]. intros; now apply register_pad.
    - destruct (seqb k "cluster"); [|reflexivity]. apply bind_same; [|reflexivity]. apply ma_pad; [exact D|].
      intros es es' -> F. unfold cluster_get. do 5 (apply bind_same; [pads|intros ?]). apply bind_same; [now apply rp_pad|intros ?].
      apply bind_same; [|intros ?; pads]. apply need_pad; [listed|exact F|]. intros x x' I G. apply seq_pad; [exact G|]. intros l y y' -> J. apply (IH k es "children"%string l y); auto.
  Qed.
  Lemma peripheral_pad es es' : padded (DMap es) (DMap es') -> peripheral_get m es = peripheral_get m es'.
  Proof.
    intros S. pose proof blind_ab. pose proof blind_it. pose proof rc_pad. unfold peripheral_get. pads. now apply rp_pad.
  Qed.
  Lemma device_pad : blind (device_get m).
  Proof.
    intros v v' S. pose proof blind_cpu. unfold device_get.
    assert (blind (ma_get (peripheral_get m))) by (intros ? ? D; apply ma_pad; [exact D|intros; now apply peripheral_pad]).
    pads. now apply rp_pad.
  Qed.
End Same.