(** Vocabulary for C103: a description with all that is inherited written in place. *)
From Verif Require Import Base Types SpecArray SpecExpand SpecWritten.

(** Following derivedFrom from an element gives [chain]; what it has after inheriting is its own or from the chain; its
    content is completed where it was written. Arrays stay arrays and clusters stay clusters. *)
Section Complete.
  Variable d : device.
  Definition field_completed (ctx : list string) (f f' : field) : Prop :=
    exists chain f1 ctx' evs,
      follows_fields d (f_name (info f)) ctx (f_derived_from (info f)) chain /\
      field_from f (paths chain) f1 /\
      origin (fun x => f_enumerated_values (info x) = []) f chain (ctx ++ [f_name (info f)]) ctx' /\
      Forall2 (values_expanded d ctx') (f_enumerated_values (info f1)) evs /\
      f' = mapped (fun i => field_with i evs) f1.
  Definition register_completed (ctx : list string) (r r' : register) : Prop :=
    exists chain r1 ctx' fs,
      follows_registers d (r_name (info r)) ctx (r_derived_from (info r)) chain /\
      register_from r (paths chain) r1 /\
      origin (fun x => r_fields (info x) = None) r chain (ctx ++ [r_name (info r)]) ctx' /\
      match r_fields (info r1) with
      | None => fs = None
      | Some l => exists l', Forall2 (field_completed ctx') l l' /\ fs = Some l'
      end /\
      r' = mapped (fun i => register_with i fs) r1.
  Inductive child_completed : list string -> register_cluster -> register_cluster -> Prop :=
    | cc_register ctx r r' : register_completed ctx r r' -> child_completed ctx (RCRegister r) (RCRegister r')
    | cc_cluster ctx (c : cluster) chain c1 ctx' kids :
        follows_clusters d (c_name (info c)) ctx (c_derived_from (info c)) chain ->
        cluster_from c (paths chain) c1 ->
        origin (fun x : cluster => c_children (info x) = []) c chain (ctx ++ [c_name (info c)]) ctx' ->
        Forall2 (child_completed ctx') (c_children (info c1)) kids ->
        child_completed ctx (RCCluster c) (RCCluster (mapped (fun i => cluster_with i kids) c1)).
  Definition peripheral_completed (p p' : peripheral) : Prop :=
    exists chain p1 ctx' rs,
      follows_peripherals d (p_name (info p)) [] (p_derived_from (info p)) chain /\
      peripheral_from p (paths chain) p1 /\
      origin (fun x => p_registers (info x) = None) p chain [p_name (info p)] ctx' /\
      match p_registers (info p1) with
      | None => rs = None
      | Some l => exists l', Forall2 (child_completed ctx') l l' /\ rs = Some l'
      end /\
      p' = mapped (fun i => peripheral_with i rs) p1.
  Definition device_completed (d' : device) : Prop :=
    same_but_peripherals d d' /\ Forall2 peripheral_completed (d_peripherals d) (d_peripherals d').
End Complete.
