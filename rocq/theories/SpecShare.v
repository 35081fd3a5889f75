(** Vocabulary for C101: elements without content of their own, derived from one with content. *)
From Verif Require Import Base Types SpecExpand.

(** [q] is where following derivedFrom from the element ends; the element and those on the way have no content;
    [q] is referred to by the name it is written with. *)
Section Source.
  Variable d : device.
  Definition peripheral_source (p q : peripheral) : Prop := exists before,
    follows_peripherals d (p_name (info p)) [] (p_derived_from (info p)) (before ++ [([p_name (info q)], q)]) /\
    p_registers (info p) = None /\ Forall (fun x => p_registers (info (snd x)) = None) before.
  Definition cluster_source (ctx : list string) (c : cluster) (at_q : list string) (q : cluster) : Prop := exists before,
    follows_clusters d (c_name (info c)) ctx (c_derived_from (info c)) (before ++ [(at_q ++ [c_name (info q)], q)]) /\
    c_children (info c) = [] /\ Forall (fun x : _ * cluster => c_children (info (snd x)) = []) before.
  Definition register_source (ctx : list string) (r : register) (at_q : list string) (q : register) : Prop := exists before,
    follows_registers d (r_name (info r)) ctx (r_derived_from (info r)) (before ++ [(at_q ++ [r_name (info q)], q)]) /\
    r_fields (info r) = None /\ Forall (fun x => r_fields (info (snd x)) = None) before.
  Definition field_source (ctx : list string) (f : field) (at_q : list string) (q : field) : Prop := exists before,
    follows_fields d (f_name (info f)) ctx (f_derived_from (info f)) (before ++ [(at_q ++ [f_name (info q)], q)]) /\
    f_enumerated_values (info f) = [] /\ Forall (fun x => f_enumerated_values (info (snd x)) = []) before.
End Source.
(** The registers [out], as seen from where the cluster [c] is, are [regs], once for each instance of the cluster. *)
Definition seen_from (m : mode) (c : cluster) (regs out : list register_info) : Prop :=
  exists (c1 : cluster) (cs : list cluster_info) outs, c_name (info c1) = c_name (info c) /\ c_address_offset (info c1) = c_address_offset (info c) /\
    instances_of (cluster_instance_of m) c1 cs /\
    Forall2 (fun k o => Forall2 (hoisted m (c_name k) (c_address_offset k)) regs o) cs outs /\ out = List.concat outs.
