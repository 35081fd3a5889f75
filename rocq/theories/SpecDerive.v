(** Vocabulary for C19-C21, independent of derive_from's code: what it means for
    a result to inherit an attribute. *)
From Verif Require Import Base Types.

(** An optional attribute: one's own value if there is one, the source's otherwise. *)
Definition inherits {A} (own source result : option A) : Prop :=
  (forall v, own = Some v -> result = Some v) /\ (own = None -> result = source).
(** A list attribute, absent when empty. *)
Definition inherits_list {A} (own source result : list A) : Prop :=
  (own <> [] -> result = own) /\ (own = [] -> result = source).

Definition props_inherit (x y z : reg_props) : Prop :=
  inherits (rp_size x) (rp_size y) (rp_size z) /\
  inherits (rp_access x) (rp_access y) (rp_access z) /\
  inherits (rp_protection x) (rp_protection y) (rp_protection z) /\
  inherits (rp_reset_value x) (rp_reset_value y) (rp_reset_value z) /\
  inherits (rp_reset_mask x) (rp_reset_mask y) (rp_reset_mask z).

Definition values_inherit (x y z : enumerated_values) : Prop :=
  (evs_name z = evs_name x /\ evs_derived_from z = evs_derived_from x) /\
  inherits (evs_usage x) (evs_usage y) (evs_usage z) /\
  inherits_list (evs_values x) (evs_values y) (evs_values z).

Definition field_inherits (x y z : field_info) : Prop :=
  (f_name z = f_name x /\ f_bit_range z = f_bit_range x /\ f_derived_from z = f_derived_from x) /\
  inherits (f_description x) (f_description y) (f_description z) /\
  inherits (f_access x) (f_access y) (f_access z) /\
  inherits (f_mwv x) (f_mwv y) (f_mwv z) /\
  inherits (f_write_constraint x) (f_write_constraint y) (f_write_constraint z) /\
  inherits (f_read_action x) (f_read_action y) (f_read_action z) /\
  inherits_list (f_enumerated_values x) (f_enumerated_values y) (f_enumerated_values z).

Definition register_inherits (x y z : register_info) : Prop :=
  (r_name z = r_name x /\ r_display_name z = r_display_name x /\
   r_alternate_group z = r_alternate_group x /\ r_alternate_register z = r_alternate_register x /\
   r_address_offset z = r_address_offset x /\ r_datatype z = r_datatype x /\
   r_derived_from z = r_derived_from x) /\
  props_inherit (r_properties x) (r_properties y) (r_properties z) /\
  inherits (r_description x) (r_description y) (r_description z) /\
  inherits (r_mwv x) (r_mwv y) (r_mwv z) /\
  inherits (r_write_constraint x) (r_write_constraint y) (r_write_constraint z) /\
  inherits (r_read_action x) (r_read_action y) (r_read_action z) /\
  inherits (r_fields x) (r_fields y) (r_fields z).

Definition cluster_inherits (x y z : cluster_info) : Prop :=
  (c_name z = c_name x /\ c_description z = c_description x /\
   c_alternate_cluster z = c_alternate_cluster x /\ c_address_offset z = c_address_offset x /\
   c_derived_from z = c_derived_from x) /\
  props_inherit (c_default_properties x) (c_default_properties y) (c_default_properties z) /\
  inherits (c_header_struct_name x) (c_header_struct_name y) (c_header_struct_name z) /\
  inherits_list (c_children x) (c_children y) (c_children z).

Definition peripheral_inherits (x y z : peripheral_info) : Prop :=
  (p_name z = p_name x /\ p_display_name z = p_display_name x /\
   p_alternate_peripheral z = p_alternate_peripheral x /\ p_base_address z = p_base_address x /\
   p_derived_from z = p_derived_from x) /\
  props_inherit (p_default_properties x) (p_default_properties y) (p_default_properties z) /\
  inherits (p_version x) (p_version y) (p_version z) /\
  inherits (p_description x) (p_description y) (p_description z) /\
  inherits (p_group_name x) (p_group_name y) (p_group_name z) /\
  inherits (p_prepend_to_name x) (p_prepend_to_name y) (p_prepend_to_name z) /\
  inherits (p_append_to_name x) (p_append_to_name y) (p_append_to_name z) /\
  inherits (p_header_struct_name x) (p_header_struct_name y) (p_header_struct_name z) /\
  inherits (p_address_block x) (p_address_block y) (p_address_block z) /\
  inherits_list (p_interrupt x) (p_interrupt y) (p_interrupt z) /\
  inherits (p_registers x) (p_registers y) (p_registers z).

(** The dimensions of an element. *)
Definition dims {A} (x : maybe_array A) : option dim_element :=
  match x with Single _ => None | Array _ d => Some d end.
(** [s] occurs in [t]. *)
Definition occurs (s t : string) : Prop := exists a b, t = (a ++ s ++ b)%string.

(** A derivation that ignores where it came from: repeating it, deriving from
    oneself, and chains. *)
Definition repeat_stable {A} (derive : A -> A -> A) : Prop := forall x y, derive (derive x y) y = derive x y.
Definition self_stable {A} (derive : A -> A -> A) : Prop := forall x, derive x x = x.
Definition chains {A} (derive : A -> A -> A) : Prop :=
  forall x y z, derive (derive x y) z = derive x (derive y z).
Definition algebra {A} (d : A -> A -> A) : Prop := repeat_stable d /\ self_stable d /\ chains d.

(** The dimensions [z] gets when [x] is derived from [y]. *)
Definition array_shape {A} (name : A -> string) (x y z : maybe_array A) : Prop :=
  (forall d, dims x = Some d -> dims z = Some d) /\
  (dims x = None -> dims y = None -> dims z = None) /\
  (forall d, dims x = None -> dims y = Some d ->
     (occurs "%s" (name (info x)) -> exists e, dims z = Some e /\
        de_dim e = de_dim d /\ de_increment e = de_increment d /\ de_index e = de_index d /\
        de_array_index e = de_array_index d /\ de_name e = None) /\
     (~ occurs "%s" (name (info x)) -> dims z = None)).
