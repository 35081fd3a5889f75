(** Vocabulary for C38: when following references comes to an end. *)
From Verif Require Import Base Types SpecArray SpecDerive SpecExpand.

Section Ends.
  Context {A : Type}.
  Variables (ref : A -> option string) (step : list string -> string -> list string -> A -> Prop).
  (** Every way of following the reference ends. *)
  Inductive ends : list string -> option string -> Prop :=
    | en_none ctx : ends ctx None
    | en_step ctx s : (forall path x, step ctx s path x -> ends (removelast path) (ref x)) -> ends ctx (Some s).
End Ends.

Section Device.
  Variable d : device.
  Definition values_end (ctx : list string) (e : enumerated_values) : Prop :=
    ends evs_derived_from (fun ctx s path e => resolves_values d ctx s path /\ values_placed d path e)
      ctx (evs_derived_from e).
  Definition field_ends (ctx : list string) (f : field) : Prop :=
    ends (fun f => f_derived_from (info f))
         (fun ctx s path f => resolves ctx s path /\ field_placed d path f) ctx (f_derived_from (info f)) /\
    forall chain f1 ctx', follows_fields d (f_name (info f)) ctx (f_derived_from (info f)) chain ->
      field_from f (paths chain) f1 ->
      origin (fun x => f_enumerated_values (info x) = []) f chain (ctx ++ [f_name (info f)]) ctx' ->
      Forall (values_end ctx') (f_enumerated_values (info f1)).
  Definition register_ends (ctx : list string) (r : register) : Prop :=
    ends (fun r => r_derived_from (info r))
         (fun ctx s path r => resolves ctx s path /\ register_placed d path r) ctx (r_derived_from (info r)) /\
    forall chain r1 ctx', follows_registers d (r_name (info r)) ctx (r_derived_from (info r)) chain ->
      register_from r (paths chain) r1 ->
      origin (fun x => r_fields (info x) = None) r chain (ctx ++ [r_name (info r)]) ctx' ->
      Forall (field_ends ctx') (or_empty (r_fields (info r1))).
  Inductive child_ends : list string -> register_cluster -> Prop :=
    | ce_reg ctx r : register_ends ctx r -> child_ends ctx (RCRegister r)
    | ce_clu ctx (c : cluster) :
        ends (fun c : cluster => c_derived_from (info c))
             (fun ctx s path c => resolves ctx s path /\ cluster_placed d path c) ctx (c_derived_from (info c)) ->
        (forall chain c1 ctx', follows_clusters d (c_name (info c)) ctx (c_derived_from (info c)) chain ->
           cluster_from c (paths chain) c1 ->
           origin (fun x : cluster => c_children (info x) = []) c chain (ctx ++ [c_name (info c)]) ctx' ->
           forall rc, In rc (c_children (info c1)) -> child_ends ctx' rc) ->
        child_ends ctx (RCCluster c).
  Definition peripheral_ends (p : peripheral) : Prop :=
    ends (fun p => p_derived_from (info p))
         (fun _ s path p => path = [s] /\ peripheral_placed d path p) [] (p_derived_from (info p)) /\
    forall chain p1 ctx', follows_peripherals d (p_name (info p)) [] (p_derived_from (info p)) chain ->
      peripheral_from p (paths chain) p1 ->
      origin (fun x => p_registers (info x) = None) p chain [p_name (info p)] ctx' ->
      Forall (child_ends ctx') (or_empty (p_registers (info p1))).
  Definition device_ends : Prop := Forall peripheral_ends (d_peripherals d).

  (** A simpler, stronger condition: the elements of each kind can be numbered so that
      references, read in any context, go down, and clusters are above those in them. *)
  Definition may_mean (s : string) (path : list string) : Prop :=
    exists parts, cut "." s parts /\
      ((exists n block, parts = [n] /\ path = block ++ [n]) \/ ((2 <= List.length parts)%nat /\ path = parts)).
  Definition may_mean_values (s : string) (path : list string) : Prop :=
    exists parts block, cut "." s parts /\ path = block ++ parts.
  Definition numbered {A} (placed : list string -> A -> Prop) (ref : A -> option string)
      (means : string -> list string -> Prop) (rank : A -> nat) : Prop :=
    forall path x s path' y, placed path x -> ref x = Some s -> placed path' y -> means s path' -> (rank y < rank x)%nat.
  Definition acyclic : Prop :=
    (exists rank, numbered (peripheral_placed d) (fun p => p_derived_from (info p)) (fun s path => path = [s]) rank) /\
    (exists rank : cluster -> nat,
       numbered (cluster_placed d) (fun c => c_derived_from (info c)) may_mean rank /\
       forall path c x, cluster_placed d path c -> In (RCCluster x) (c_children (info c)) -> (rank x < rank c)%nat) /\
    (exists rank, numbered (register_placed d) (fun r => r_derived_from (info r)) may_mean rank) /\
    (exists rank, numbered (field_placed d) (fun f => f_derived_from (info f)) may_mean rank) /\
    (exists rank, numbered (values_placed d) evs_derived_from may_mean_values rank).
End Device.
