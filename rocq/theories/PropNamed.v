(** C57: writing with identifier formats. *)
From Verif Require Import Base BaseFacts Types Arrays Config Sort Xml Encode Parse Expand SpecArray InstanceProofs SpecValidate SpecSort SpecRound RoundProofs EncodeProofs
  SpecExpand SpecNamed NamedProofs PropParse FitProofs PropExpand PropRound PropCause.

(** A document written with identifier formats parses to the description, arranged as asked for under its own names
    (C43), with the names in the cases. *)
Theorem C57_named : forall m m' conv style cfg pcfg d n, styles conv style -> pc_ignore_enums pcfg = false ->
  device_fits (pc_level pcfg) (named_device style cfg d) -> (forall f, in_device d (EField f) -> spans cfg f) ->
  device_encode m conv cfg d = Ok n ->
  exists x, device_like cfg d x /\ device_parse m' pcfg n = Ok (named_device style cfg x).
Proof.
  intros m m' conv style cfg pcfg d n T I F S E. destruct (device_stands m conv cfg d n E) as [d' W].
  destruct (device_named m conv style cfg _ (styles_cased _ _ T) d d' F S W) as (x & L & -> & F').
  exists x. split; [exact L|]. eapply device_round; eauto.
Qed.
Print Assumptions C57_named.
(** There is one such case function for each [conv]. *)
Theorem C57_styles : forall conv, styles conv (cased conv) /\ forall style, styles conv style -> forall c s, style c s = cased conv c s.
Proof.
  intros conv. split; [split; [reflexivity|intros c s; exact (replace_replaced "%" "S" "%s" (conv c s))]|].
  intros style T c s. symmetry. now apply styles_cased.
Qed.
Print Assumptions C57_styles.

(** References to siblings by their own names are still followed, to the same elements, as long as the case does not
    give one of them the name one starts from and makes no dots. *)
Theorem C57_peripheral_references : forall style cfg d name s chain,
  siblings p_name p_derived_from (fun p => In p (d_peripherals d)) s chain ->
  keeps_apart style (cfg_peripheral_name cfg) name (map (fun p => p_name (info p)) chain) ->
  follows_peripherals (named_device style cfg d) (style (cfg_peripheral_name cfg) name) [] (Some (style (cfg_peripheral_name cfg) s))
    (map (fun p => ([style (cfg_peripheral_name cfg) (p_name (info p))], named_any style cfg (named_peripheral style cfg) p)) chain).
Proof. exact peripherals_referred. Qed.
Print Assumptions C57_peripheral_references.
Theorem C57_register_references : forall style cfg d path path' kids name s chain, block_at style cfg d path path' kids ->
  siblings r_name r_derived_from (fun r => In (RCRegister r) kids) s chain ->
  keeps_apart style (cfg_register_name cfg) name (map (fun p => r_name (info p)) chain) ->
  makes_no_dots style (cfg_register_name cfg) (map (fun p => r_name (info p)) chain) ->
  follows_registers (named_device style cfg d) (style (cfg_register_name cfg) name) path' (Some (style (cfg_register_name cfg) s))
    (map (fun r => (path' ++ [style (cfg_register_name cfg) (r_name (info r))], named_any style cfg (named_register style cfg) r)) chain).
Proof. exact registers_referred. Qed.
Print Assumptions C57_register_references.
Theorem C57_cluster_references : forall style cfg d path path' kids name s chain, block_at style cfg d path path' kids ->
  siblings c_name c_derived_from (fun c => In (RCCluster c) kids) s chain ->
  keeps_apart style (cfg_cluster_name cfg) name (map (fun c : cluster => c_name (info c)) chain) ->
  makes_no_dots style (cfg_cluster_name cfg) (map (fun c : cluster => c_name (info c)) chain) ->
  follows_clusters (named_device style cfg d) (style (cfg_cluster_name cfg) name) path' (Some (style (cfg_cluster_name cfg) s))
    (map (fun c : cluster => (path' ++ [style (cfg_cluster_name cfg) (c_name (info c))],
      named_any style cfg (named_cluster style cfg (map (named_child style cfg) (c_children (info c)))) c)) chain).
Proof. exact clusters_referred. Qed.
Print Assumptions C57_cluster_references.
Theorem C57_field_references : forall style cfg d path path' kids r name s chain, block_at style cfg d path path' kids -> In (RCRegister r) kids ->
  siblings f_name f_derived_from (fun f => In f (or_empty (r_fields (info r)))) s chain ->
  keeps_apart style (cfg_field_name cfg) name (map (fun p => f_name (info p)) chain) ->
  makes_no_dots style (cfg_field_name cfg) (map (fun p => f_name (info p)) chain) ->
  let ctx := path' ++ [style (cfg_register_name cfg) (r_name (info r))] in
  follows_fields (named_device style cfg d) (style (cfg_field_name cfg) name) ctx (Some (style (cfg_field_name cfg) s))
    (map (fun f => (ctx ++ [style (cfg_field_name cfg) (f_name (info f))], named_any style cfg (named_field style cfg) f)) chain).
Proof. exact fields_referred. Qed.
Print Assumptions C57_field_references.

Definition longer_document : xml := Eval vm_compute in
  match device_encode Debug longer naming described with Ok n => n | _ => Misc end.
Example C57_named_example : styles longer (cased longer) /\ device_fits Strict (named_device (cased longer) naming described) /\
  (forall f, in_device described (EField f) -> spans naming f) /\ device_encode Debug longer naming described = Ok longer_document /\
  named_device (cased longer) naming described <> described.
Proof.
  split; [apply C57_styles|]. split; [|split; [intros f _ t T; discriminate|split; [vm_compute; reflexivity|intros X; vm_compute in X; discriminate]]].
  apply (device_read Debug strictly longer_document); [apply no_blanksb_ok; reflexivity|vm_compute; reflexivity|].
  intros f H. apply device_field_in in H. cbn in H. unfold can_write. repeat (destruct H as [<-|H]; [cbn; lia|]). destruct H.
Qed.
(** A register derived from its sibling "cr": in upper case it is derived from "CR", and the description still expands. *)
Definition sibling_device : device := a_device [Single (a_peripheral "Tim" 0 (Some
    [RCRegister (Single (a_register "cr" 0 None None)); RCRegister (Single (a_register "sr" 8 None (Some "cr"%string)));
     RCRegister (Single (a_register "dr" 4 None (Some "sr"%string)))]) None)].
Definition uppercase : option id_format -> string -> string := cased (fun _ => to_upper).
Definition sibling_document : xml := Eval vm_compute in
  match device_encode Debug (fun _ => to_upper) upper_registers sibling_device with Ok n => n | _ => Misc end.
Example C57_references_example : exists p r s, d_peripherals sibling_device = [p] /\
  block_at uppercase upper_registers sibling_device ["Tim"]%string ["Tim"]%string (or_empty (p_registers (info p))) /\
  siblings r_name r_derived_from (fun r => In (RCRegister r) (or_empty (p_registers (info p)))) "sr" [s; r] /\
  keeps_apart uppercase (Some Constant) "dr" ["sr"; "cr"]%string /\ makes_no_dots uppercase (Some Constant) ["sr"; "cr"]%string /\
  device_encode Debug (fun _ => to_upper) upper_registers sibling_device = Ok sibling_document /\
  device_parse Debug weakly sibling_document = Ok (named_device uppercase upper_registers sibling_device) /\
  accepted (expand Debug 9 (named_device uppercase upper_registers sibling_device)) = true.
Proof.
  eexists _, (Single (a_register "cr" 0 None None)), (Single (a_register "sr" 8 None (Some "cr"%string))). split; [reflexivity|].
  split; [exact (ba_peripheral uppercase upper_registers sibling_device _ (or_introl eq_refl))|].
  split; [|split; [|split; [|split; [|split]]]].
  - apply (si_more r_name r_derived_from _ (Single (a_register "sr" 8 None (Some "cr"%string))) "cr"); [right; left; reflexivity|reflexivity|].
    apply (si_last r_name r_derived_from _ (Single (a_register "cr" 0 None None))); [left; reflexivity|reflexivity].
  - intros n [<-|[<-|[]]]; vm_compute; discriminate.
  - intros n [<-|[<-|[]]]; vm_compute; intuition discriminate.
  - vm_compute. reflexivity.
  - vm_compute. reflexivity.
  - vm_compute. reflexivity.
Qed.
