(** Vocabulary for C39-C40: property defaults. *)
From Verif Require Import Base Types SpecExpand.

(** [q] takes each property from the first of [levels] that gives it. *)
Definition resolved (levels : list reg_props) (q : reg_props) : Prop := nearest_props (fun l => l) levels q.

(** [rc'] is [rc] with defaults filled in, where [levels] are the defaults of the parents,
    innermost first; elements with derivedFrom are left alone. *)
Inductive filled : list reg_props -> register_cluster -> register_cluster -> Prop :=
  | fl_derived_register levels r : r_derived_from (info r) <> None -> filled levels (RCRegister r) (RCRegister r)
  | fl_register levels (r r' : register) :
      r_derived_from (info r) = None ->
      (exists q, resolved (r_properties (info r) :: levels) q /\
         r' = mapped (fun i => {| r_name := r_name i; r_display_name := r_display_name i;
           r_description := r_description i; r_alternate_group := r_alternate_group i;
           r_alternate_register := r_alternate_register i; r_address_offset := r_address_offset i;
           r_properties := q; r_datatype := r_datatype i; r_mwv := r_mwv i;
           r_write_constraint := r_write_constraint i; r_read_action := r_read_action i;
           r_fields := r_fields i; r_derived_from := r_derived_from i |}) r) ->
      filled levels (RCRegister r) (RCRegister r')
  | fl_derived_cluster levels (c : cluster) : c_derived_from (info c) <> None ->
      filled levels (RCCluster c) (RCCluster c)
  | fl_cluster levels (c c' : cluster) kids :
      c_derived_from (info c) = None ->
      Forall2 (filled (c_default_properties (info c) :: levels)) (c_children (info c)) kids ->
      c' = mapped (fun i => {| c_name := c_name i; c_description := c_description i;
        c_alternate_cluster := c_alternate_cluster i; c_header_struct_name := c_header_struct_name i;
        c_address_offset := c_address_offset i; c_default_properties := c_default_properties i;
        c_children := kids; c_derived_from := c_derived_from i |}) c ->
      filled levels (RCCluster c) (RCCluster c').
Definition filled_peripheral (top : reg_props) (p p' : peripheral) : Prop :=
  (p_derived_from (info p) <> None -> p' = p) /\
  (p_derived_from (info p) = None ->
     exists rs, p' = mapped (fun i => peripheral_with i rs) p /\
     match p_registers (info p) with
     | None => rs = None
     | Some l => exists l', rs = Some l' /\ Forall2 (filled [p_default_properties (info p); top]) l l'
     end).
