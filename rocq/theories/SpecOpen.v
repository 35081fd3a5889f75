(** Vocabulary for C104: a cluster dissolved into what it contains. *)
From Verif Require Import Base Types SpecArray SpecExpand SpecWritten.

(** Another name and address; all else is kept. *)
Definition register_moved (i : register_info) (name : string) (off : N) : register_info :=
  {| r_name := name; r_display_name := r_display_name i; r_description := r_description i;
     r_alternate_group := r_alternate_group i; r_alternate_register := r_alternate_register i;
     r_address_offset := off; r_properties := r_properties i; r_datatype := r_datatype i;
     r_mwv := r_mwv i; r_write_constraint := r_write_constraint i;
     r_read_action := r_read_action i; r_fields := r_fields i; r_derived_from := r_derived_from i |}.
Definition cluster_moved (i : cluster_info) (name : string) (off : N) : cluster_info :=
  {| c_name := name; c_description := c_description i; c_alternate_cluster := c_alternate_cluster i;
     c_header_struct_name := c_header_struct_name i; c_address_offset := off;
     c_default_properties := c_default_properties i; c_children := c_children i; c_derived_from := c_derived_from i |}.
(** An element moved to [base] stays within the addresses; if it is an array, its instances are named by its name and
    there is no placeholder in the name [n] put before. *)
Definition movable {A} (n : string) (x : maybe_array A) (base : N) : Prop :=
  base < 2 ^ 32 /\
  match x with
  | Single _ => True
  | Array _ d => free_of "%" n /\ de_array_index d = None /\ forall k, k < de_dim d -> base + k * de_increment d < 2 ^ 32
  end.
(** A child of a cluster of name [n] at [off], put beside the cluster. *)
Inductive child_moved (n : string) (off : N) : register_cluster -> register_cluster -> Prop :=
  | cm_register r : movable n r (r_address_offset (info r) + off) -> child_moved n off (RCRegister r)
      (RCRegister (mapped (fun i => register_moved i (n ++ "_" ++ r_name i)%string (r_address_offset i + off)) r))
  | cm_cluster (c : cluster) : movable n c (c_address_offset (info c) + off) -> child_moved n off (RCCluster c)
      (RCCluster (mapped (fun i => cluster_moved i (n ++ "_" ++ c_name i)%string (c_address_offset i + off)) c)).
(** Some of the clusters that are no arrays, at any depth, are dissolved. *)
Inductive child_dissolved : register_cluster -> list register_cluster -> Prop :=
  | cd_register r : child_dissolved (RCRegister r) [RCRegister r]
  | cd_kept (c : cluster) ls : Forall2 child_dissolved (c_children (info c)) ls ->
      child_dissolved (RCCluster c) [RCCluster (mapped (fun i => cluster_with i (List.concat ls)) c)]
  | cd_dissolved (i : cluster_info) ls out : Forall2 child_dissolved (c_children i) ls ->
      Forall2 (child_moved (c_name i) (c_address_offset i)) (List.concat ls) out ->
      child_dissolved (RCCluster (Single i)) out.
Definition peripheral_dissolved (p p' : peripheral) : Prop :=
  exists o, match p_registers (info p), o with
            | None, None => True
            | Some rs, Some rs' => exists ls, Forall2 child_dissolved rs ls /\ rs' = List.concat ls
            | _, _ => False
            end /\ p' = mapped (fun i => peripheral_with i o) p.
Definition device_dissolved (d d' : device) : Prop :=
  same_but_peripherals d d' /\ Forall2 peripheral_dissolved (d_peripherals d) (d_peripherals d').
