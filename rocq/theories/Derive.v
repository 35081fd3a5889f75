(** derive_from: svd-rs/src/derive_from.rs. *)
From Verif Require Import Base Types.

(** svd-rs/src/derive_from.rs:84-94 *)
Definition rp_derive (x o : reg_props) : reg_props :=
  {| rp_size := opt_or (rp_size x) (rp_size o);
     rp_access := opt_or (rp_access x) (rp_access o);
     rp_protection := opt_or (rp_protection x) (rp_protection o);
     rp_reset_value := opt_or (rp_reset_value x) (rp_reset_value o);
     rp_reset_mask := opt_or (rp_reset_mask x) (rp_reset_mask o) |}.

(** [if derived.l.is_empty() { derived.l = other.l.clone() }] *)
Definition list_or {A} (x o : list A) : list A := if is_nil x then o else x.

(** svd-rs/src/derive_from.rs:13-27 *)
Definition cluster_derive (x o : cluster_info) : cluster_info :=
  {| c_name := c_name x;
     c_description := c_description x;
     c_alternate_cluster := c_alternate_cluster x;
     c_header_struct_name := opt_or (c_header_struct_name x) (c_header_struct_name o);
     c_address_offset := c_address_offset x;
     c_default_properties := rp_derive (c_default_properties x) (c_default_properties o);
     c_children := list_or (c_children x) (c_children o);
     c_derived_from := c_derived_from x |}.

(** svd-rs/src/derive_from.rs:29-38 *)
Definition evs_derive (x o : enumerated_values) : enumerated_values :=
  {| evs_name := evs_name x;
     evs_usage := opt_or (evs_usage x) (evs_usage o);
     evs_derived_from := evs_derived_from x;
     evs_values := list_or (evs_values x) (evs_values o) |}.

(** svd-rs/src/derive_from.rs:40-67 *)
Definition peripheral_derive (x o : peripheral_info) : peripheral_info :=
  {| p_name := p_name x;
     p_display_name := p_display_name x;
     p_version := opt_or (p_version x) (p_version o);
     p_description := opt_or (p_description x) (p_description o);
     p_alternate_peripheral := p_alternate_peripheral x;
     p_group_name := opt_or (p_group_name x) (p_group_name o);
     p_prepend_to_name := opt_or (p_prepend_to_name x) (p_prepend_to_name o);
     p_append_to_name := opt_or (p_append_to_name x) (p_append_to_name o);
     p_header_struct_name := opt_or (p_header_struct_name x) (p_header_struct_name o);
     p_base_address := p_base_address x;
     p_default_properties := rp_derive (p_default_properties x) (p_default_properties o);
     p_address_block := opt_or (p_address_block x) (p_address_block o);
     p_interrupt := list_or (p_interrupt x) (p_interrupt o);
     p_registers := opt_or (p_registers x) (p_registers o);
     p_derived_from := p_derived_from x |}.

(** svd-rs/src/derive_from.rs:69-82 *)
Definition register_derive (x o : register_info) : register_info :=
  {| r_name := r_name x;
     r_display_name := r_display_name x;
     r_description := opt_or (r_description x) (r_description o);
     r_alternate_group := r_alternate_group x;
     r_alternate_register := r_alternate_register x;
     r_address_offset := r_address_offset x;
     r_properties := rp_derive (r_properties x) (r_properties o);
     r_datatype := r_datatype x;
     r_mwv := opt_or (r_mwv x) (r_mwv o);
     r_write_constraint := opt_or (r_write_constraint x) (r_write_constraint o);
     r_read_action := opt_or (r_read_action x) (r_read_action o);
     r_fields := opt_or (r_fields x) (r_fields o);
     r_derived_from := r_derived_from x |}.

(** svd-rs/src/derive_from.rs:96-111 *)
Definition field_derive (x o : field_info) : field_info :=
  {| f_name := f_name x;
     f_description := opt_or (f_description x) (f_description o);
     f_bit_range := f_bit_range x;
     f_access := opt_or (f_access x) (f_access o);
     f_mwv := opt_or (f_mwv x) (f_mwv o);
     f_write_constraint := opt_or (f_write_constraint x) (f_write_constraint o);
     f_read_action := opt_or (f_read_action x) (f_read_action o);
     f_enumerated_values := list_or (f_enumerated_values x) (f_enumerated_values o);
     f_derived_from := f_derived_from x |}.

(** svd-rs/src/derive_from.rs:113-136, for an info type with a name and its own
    derive_from. *)
Section MaybeArrayDerive.
  Context {A : Type}.
  Variable name : A -> string.
  Variable derive : A -> A -> A.
  Definition ma_derive (x o : maybe_array A) : maybe_array A :=
    match x, o with
    | Single a, Single b => Single (derive a b)
    | Single a, Array b d =>
        if contains "%s" (name a)
        then Array (derive a b)
               {| de_dim := de_dim d; de_increment := de_increment d; de_index := de_index d;
                  de_name := None; de_array_index := de_array_index d |}
        else Single (derive a b)
    | Array a d, Single b => Array (derive a b) d
    | Array a d, Array b _ => Array (derive a b) d
    end.
End MaybeArrayDerive.

Definition field_ma_derive : field -> field -> field := ma_derive f_name field_derive.
Definition register_ma_derive : register -> register -> register := ma_derive r_name register_derive.
Definition cluster_ma_derive : cluster -> cluster -> cluster := ma_derive c_name cluster_derive.
Definition peripheral_ma_derive : peripheral -> peripheral -> peripheral :=
  ma_derive p_name peripheral_derive.
