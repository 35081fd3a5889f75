(** Builder calls: the setters of every svd-rs builder as calls that can be chained.
    A call is a setter with its argument; a chain starts at [builder()], which is the
    derived Default of the builder: every attribute unset. *)
From Verif Require Import Base Types Validate Builders.

(** [b.f(x).g(y)...]: the setters take self and return it. *)
Definition chain {B C} (call : C -> B -> B) (b : B) (cs : list C) : B :=
  fold_left (fun b c => call c b) cs b.

(** ** RegisterProperties (its own builder): default svd-rs/src/registerproperties.rs:23,
    setters 98-122 *)
Inductive props_call : Type :=
| with_props_size (v : option N) | with_props_access (v : option access) | with_props_protection (v : option protection)
| with_props_reset_value (v : option N) | with_props_reset_mask (v : option N).
Definition props_set (c : props_call) (b : reg_props) : reg_props :=
  match c with
  | with_props_size v => RegProps v (rp_access b) (rp_protection b) (rp_reset_value b) (rp_reset_mask b)
  | with_props_access v => RegProps (rp_size b) v (rp_protection b) (rp_reset_value b) (rp_reset_mask b)
  | with_props_protection v => RegProps (rp_size b) (rp_access b) v (rp_reset_value b) (rp_reset_mask b)
  | with_props_reset_value v => RegProps (rp_size b) (rp_access b) (rp_protection b) v (rp_reset_mask b)
  | with_props_reset_mask v => RegProps (rp_size b) (rp_access b) (rp_protection b) (rp_reset_value b) v
  end.

(** ** value: default svd-rs/src/enumeratedvalue.rs:48, 110-112 *)
Definition value_new : ev_builder := EvBuilder None None None None.
Inductive value_call : Type :=
(** 69-72 *) | with_value_name (v : string)
(** 74-77 *) | with_value_description (v : option string)
(** 79-82 *) | with_value_value (v : option N)
(** 85-88 *) | with_value_is_default (v : option bool).
(** Setters svd-rs/src/enumeratedvalue.rs, at the lines above. *)
Definition value_set (c : value_call) (b : ev_builder) : ev_builder :=
  match c with
  | with_value_name v => EvBuilder (Some v) (evb_description b) (evb_value b) (evb_is_default b)
  | with_value_description v => EvBuilder (evb_name b) v (evb_value b) (evb_is_default b)
  | with_value_value v => EvBuilder (evb_name b) (evb_description b) v (evb_is_default b)
  | with_value_is_default v => EvBuilder (evb_name b) (evb_description b) (evb_value b) v
  end.

(** ** values: default svd-rs/src/enumeratedvalues.rs:47, 107-109 *)
Definition values_new : evs_builder := EvsBuilder None None None None.
Inductive values_call : Type :=
(** 68-71 *) | with_values_name (v : option string)
(** 73-76 *) | with_values_usage (v : option usage)
(** 78-81 *) | with_values_derived_from (v : option string)
(** 83-86 *) | with_values_values (v : list enumerated_value).
(** Setters svd-rs/src/enumeratedvalues.rs, at the lines above. *)
Definition values_set (c : values_call) (b : evs_builder) : evs_builder :=
  match c with
  | with_values_name v => EvsBuilder v (evsb_usage b) (evsb_derived_from b) (evsb_values b)
  | with_values_usage v => EvsBuilder (evsb_name b) v (evsb_derived_from b) (evsb_values b)
  | with_values_derived_from v => EvsBuilder (evsb_name b) (evsb_usage b) v (evsb_values b)
  | with_values_values v => EvsBuilder (evsb_name b) (evsb_usage b) (evsb_derived_from b) (Some v)
  end.

(** ** dim: default svd-rs/src/dimelement.rs:72, 139-141 *)
Definition dim_new : de_builder := DeBuilder None None None None None.
Inductive dim_call : Type :=
(** 95-98 *) | with_dim_dim (v : N)
(** 100-103 *) | with_dim_dim_increment (v : N)
(** 105-108 *) | with_dim_dim_index (v : option (list string))
(** 110-113 *) | with_dim_dim_name (v : option string)
(** 115-118 *) | with_dim_dim_array_index (v : option dim_array_index).
(** Setters svd-rs/src/dimelement.rs, at the lines above. *)
Definition dim_set (c : dim_call) (b : de_builder) : de_builder :=
  match c with
  | with_dim_dim v => DeBuilder (Some v) (deb_increment b) (deb_index b) (deb_name b) (deb_array_index b)
  | with_dim_dim_increment v => DeBuilder (deb_dim b) (Some v) (deb_index b) (deb_name b) (deb_array_index b)
  | with_dim_dim_index v => DeBuilder (deb_dim b) (deb_increment b) v (deb_name b) (deb_array_index b)
  | with_dim_dim_name v => DeBuilder (deb_dim b) (deb_increment b) (deb_index b) v (deb_array_index b)
  | with_dim_dim_array_index v => DeBuilder (deb_dim b) (deb_increment b) (deb_index b) (deb_name b) v
  end.

(** ** field: default svd-rs/src/field.rs:111, 240-242 *)
Definition field_new : field_builder := FieldBuilder None None None None None None None None None None None.
Inductive field_call : Type :=
(** 146-149 *) | with_field_name (v : string)
(** 151-154 *) | with_field_description (v : option string)
(** 156-161 *) | with_field_bit_range (v : bit_range)
(** 163-173 *) | with_field_bit_offset (v : N)
(** 175-185 *) | with_field_bit_width (v : N)
(** 187-190 *) | with_field_access (v : option access)
(** 192-195 *) | with_field_modified_write_values (v : option mwv)
(** 197-200 *) | with_field_write_constraint (v : option write_constraint)
(** 202-205 *) | with_field_read_action (v : option read_action)
(** 207-210 *) | with_field_enumerated_values (v : list enumerated_values)
(** 212-215 *) | with_field_derived_from (v : option string).
(** Setters svd-rs/src/field.rs, at the lines above. *)
Definition field_set (c : field_call) (b : field_builder) : field_builder :=
  match c with
  | with_field_name v => FieldBuilder (Some v) (fb_description b) (fb_bit_range b) (fb_bit_offset b) (fb_bit_width b) (fb_access b) (fb_mwv b) (fb_write_constraint b) (fb_read_action b) (fb_enumerated_values b) (fb_derived_from b)
  | with_field_description v => FieldBuilder (fb_name b) v (fb_bit_range b) (fb_bit_offset b) (fb_bit_width b) (fb_access b) (fb_mwv b) (fb_write_constraint b) (fb_read_action b) (fb_enumerated_values b) (fb_derived_from b)
  | with_field_bit_range v => fb_set_bit_range v b
  | with_field_bit_offset v => fb_set_bit_offset v b
  | with_field_bit_width v => fb_set_bit_width v b
  | with_field_access v => FieldBuilder (fb_name b) (fb_description b) (fb_bit_range b) (fb_bit_offset b) (fb_bit_width b) v (fb_mwv b) (fb_write_constraint b) (fb_read_action b) (fb_enumerated_values b) (fb_derived_from b)
  | with_field_modified_write_values v => FieldBuilder (fb_name b) (fb_description b) (fb_bit_range b) (fb_bit_offset b) (fb_bit_width b) (fb_access b) v (fb_write_constraint b) (fb_read_action b) (fb_enumerated_values b) (fb_derived_from b)
  | with_field_write_constraint v => FieldBuilder (fb_name b) (fb_description b) (fb_bit_range b) (fb_bit_offset b) (fb_bit_width b) (fb_access b) (fb_mwv b) v (fb_read_action b) (fb_enumerated_values b) (fb_derived_from b)
  | with_field_read_action v => FieldBuilder (fb_name b) (fb_description b) (fb_bit_range b) (fb_bit_offset b) (fb_bit_width b) (fb_access b) (fb_mwv b) (fb_write_constraint b) v (fb_enumerated_values b) (fb_derived_from b)
  | with_field_enumerated_values v => FieldBuilder (fb_name b) (fb_description b) (fb_bit_range b) (fb_bit_offset b) (fb_bit_width b) (fb_access b) (fb_mwv b) (fb_write_constraint b) (fb_read_action b) (Some v) (fb_derived_from b)
  | with_field_derived_from v => FieldBuilder (fb_name b) (fb_description b) (fb_bit_range b) (fb_bit_offset b) (fb_bit_width b) (fb_access b) (fb_mwv b) (fb_write_constraint b) (fb_read_action b) (fb_enumerated_values b) v
  end.

(** ** register: default svd-rs/src/register.rs:144, 295-297 *)
Definition register_new : register_builder := RegisterBuilder None None None None None None rp_default None None None None None None.
Inductive register_call : Type :=
(** 183-186 *) | with_register_name (v : string)
(** 188-191 *) | with_register_display_name (v : option string)
(** 193-196 *) | with_register_description (v : option string)
(** 198-201 *) | with_register_alternate_group (v : option string)
(** 203-206 *) | with_register_alternate_register (v : option string)
(** 208-211 *) | with_register_address_offset (v : N)
(** 213-216 *) | with_register_properties (v : reg_props)
(** 218-221 *) | with_register_datatype (v : option data_type)
(** 243-246 *) | with_register_modified_write_values (v : option mwv)
(** 248-251 *) | with_register_write_constraint (v : option write_constraint)
(** 253-256 *) | with_register_read_action (v : option read_action)
(** 258-261 *) | with_register_fields (v : option (list field))
(** 263-266 *) | with_register_derived_from (v : option string)
(** 223-226 *) | with_register_size (v : option N)
(** 228-231 *) | with_register_access (v : option access)
(** 233-236 *) | with_register_reset_value (v : option N)
(** 238-241 *) | with_register_reset_mask (v : option N).
(** Setters svd-rs/src/register.rs, at the lines above. *)
Definition register_set (c : register_call) (b : register_builder) : register_builder :=
  match c with
  | with_register_name v => RegisterBuilder (Some v) (rb_display_name b) (rb_description b) (rb_alternate_group b) (rb_alternate_register b) (rb_address_offset b) (rb_properties b) (rb_datatype b) (rb_mwv b) (rb_write_constraint b) (rb_read_action b) (rb_fields b) (rb_derived_from b)
  | with_register_display_name v => RegisterBuilder (rb_name b) v (rb_description b) (rb_alternate_group b) (rb_alternate_register b) (rb_address_offset b) (rb_properties b) (rb_datatype b) (rb_mwv b) (rb_write_constraint b) (rb_read_action b) (rb_fields b) (rb_derived_from b)
  | with_register_description v => RegisterBuilder (rb_name b) (rb_display_name b) v (rb_alternate_group b) (rb_alternate_register b) (rb_address_offset b) (rb_properties b) (rb_datatype b) (rb_mwv b) (rb_write_constraint b) (rb_read_action b) (rb_fields b) (rb_derived_from b)
  | with_register_alternate_group v => RegisterBuilder (rb_name b) (rb_display_name b) (rb_description b) v (rb_alternate_register b) (rb_address_offset b) (rb_properties b) (rb_datatype b) (rb_mwv b) (rb_write_constraint b) (rb_read_action b) (rb_fields b) (rb_derived_from b)
  | with_register_alternate_register v => RegisterBuilder (rb_name b) (rb_display_name b) (rb_description b) (rb_alternate_group b) v (rb_address_offset b) (rb_properties b) (rb_datatype b) (rb_mwv b) (rb_write_constraint b) (rb_read_action b) (rb_fields b) (rb_derived_from b)
  | with_register_address_offset v => RegisterBuilder (rb_name b) (rb_display_name b) (rb_description b) (rb_alternate_group b) (rb_alternate_register b) (Some v) (rb_properties b) (rb_datatype b) (rb_mwv b) (rb_write_constraint b) (rb_read_action b) (rb_fields b) (rb_derived_from b)
  | with_register_properties v => RegisterBuilder (rb_name b) (rb_display_name b) (rb_description b) (rb_alternate_group b) (rb_alternate_register b) (rb_address_offset b) v (rb_datatype b) (rb_mwv b) (rb_write_constraint b) (rb_read_action b) (rb_fields b) (rb_derived_from b)
  | with_register_datatype v => RegisterBuilder (rb_name b) (rb_display_name b) (rb_description b) (rb_alternate_group b) (rb_alternate_register b) (rb_address_offset b) (rb_properties b) v (rb_mwv b) (rb_write_constraint b) (rb_read_action b) (rb_fields b) (rb_derived_from b)
  | with_register_modified_write_values v => RegisterBuilder (rb_name b) (rb_display_name b) (rb_description b) (rb_alternate_group b) (rb_alternate_register b) (rb_address_offset b) (rb_properties b) (rb_datatype b) v (rb_write_constraint b) (rb_read_action b) (rb_fields b) (rb_derived_from b)
  | with_register_write_constraint v => RegisterBuilder (rb_name b) (rb_display_name b) (rb_description b) (rb_alternate_group b) (rb_alternate_register b) (rb_address_offset b) (rb_properties b) (rb_datatype b) (rb_mwv b) v (rb_read_action b) (rb_fields b) (rb_derived_from b)
  | with_register_read_action v => RegisterBuilder (rb_name b) (rb_display_name b) (rb_description b) (rb_alternate_group b) (rb_alternate_register b) (rb_address_offset b) (rb_properties b) (rb_datatype b) (rb_mwv b) (rb_write_constraint b) v (rb_fields b) (rb_derived_from b)
  | with_register_fields v => RegisterBuilder (rb_name b) (rb_display_name b) (rb_description b) (rb_alternate_group b) (rb_alternate_register b) (rb_address_offset b) (rb_properties b) (rb_datatype b) (rb_mwv b) (rb_write_constraint b) (rb_read_action b) v (rb_derived_from b)
  | with_register_derived_from v => RegisterBuilder (rb_name b) (rb_display_name b) (rb_description b) (rb_alternate_group b) (rb_alternate_register b) (rb_address_offset b) (rb_properties b) (rb_datatype b) (rb_mwv b) (rb_write_constraint b) (rb_read_action b) (rb_fields b) v
  | with_register_size v => RegisterBuilder (rb_name b) (rb_display_name b) (rb_description b) (rb_alternate_group b) (rb_alternate_register b) (rb_address_offset b) (props_set (with_props_size v) (rb_properties b)) (rb_datatype b) (rb_mwv b) (rb_write_constraint b) (rb_read_action b) (rb_fields b) (rb_derived_from b)
  | with_register_access v => RegisterBuilder (rb_name b) (rb_display_name b) (rb_description b) (rb_alternate_group b) (rb_alternate_register b) (rb_address_offset b) (props_set (with_props_access v) (rb_properties b)) (rb_datatype b) (rb_mwv b) (rb_write_constraint b) (rb_read_action b) (rb_fields b) (rb_derived_from b)
  | with_register_reset_value v => RegisterBuilder (rb_name b) (rb_display_name b) (rb_description b) (rb_alternate_group b) (rb_alternate_register b) (rb_address_offset b) (props_set (with_props_reset_value v) (rb_properties b)) (rb_datatype b) (rb_mwv b) (rb_write_constraint b) (rb_read_action b) (rb_fields b) (rb_derived_from b)
  | with_register_reset_mask v => RegisterBuilder (rb_name b) (rb_display_name b) (rb_description b) (rb_alternate_group b) (rb_alternate_register b) (rb_address_offset b) (props_set (with_props_reset_mask v) (rb_properties b)) (rb_datatype b) (rb_mwv b) (rb_write_constraint b) (rb_read_action b) (rb_fields b) (rb_derived_from b)
  end.

(** ** cluster: default svd-rs/src/cluster.rs:102, 195-197 *)
Definition cluster_new : cluster_builder := ClusterBuilder None None None None None rp_default None None.
Inductive cluster_call : Type :=
(** 131-134 *) | with_cluster_name (v : string)
(** 136-139 *) | with_cluster_description (v : option string)
(** 141-144 *) | with_cluster_alternate_cluster (v : option string)
(** 146-149 *) | with_cluster_header_struct_name (v : option string)
(** 151-154 *) | with_cluster_address_offset (v : N)
(** 156-159 *) | with_cluster_default_register_properties (v : reg_props)
(** 161-164 *) | with_cluster_children (v : list register_cluster)
(** 166-169 *) | with_cluster_derived_from (v : option string).
(** Setters svd-rs/src/cluster.rs, at the lines above. *)
Definition cluster_set (c : cluster_call) (b : cluster_builder) : cluster_builder :=
  match c with
  | with_cluster_name v => ClusterBuilder (Some v) (cb_description b) (cb_alternate_cluster b) (cb_header_struct_name b) (cb_address_offset b) (cb_default_properties b) (cb_children b) (cb_derived_from b)
  | with_cluster_description v => ClusterBuilder (cb_name b) v (cb_alternate_cluster b) (cb_header_struct_name b) (cb_address_offset b) (cb_default_properties b) (cb_children b) (cb_derived_from b)
  | with_cluster_alternate_cluster v => ClusterBuilder (cb_name b) (cb_description b) v (cb_header_struct_name b) (cb_address_offset b) (cb_default_properties b) (cb_children b) (cb_derived_from b)
  | with_cluster_header_struct_name v => ClusterBuilder (cb_name b) (cb_description b) (cb_alternate_cluster b) v (cb_address_offset b) (cb_default_properties b) (cb_children b) (cb_derived_from b)
  | with_cluster_address_offset v => ClusterBuilder (cb_name b) (cb_description b) (cb_alternate_cluster b) (cb_header_struct_name b) (Some v) (cb_default_properties b) (cb_children b) (cb_derived_from b)
  | with_cluster_default_register_properties v => ClusterBuilder (cb_name b) (cb_description b) (cb_alternate_cluster b) (cb_header_struct_name b) (cb_address_offset b) v (cb_children b) (cb_derived_from b)
  | with_cluster_children v => ClusterBuilder (cb_name b) (cb_description b) (cb_alternate_cluster b) (cb_header_struct_name b) (cb_address_offset b) (cb_default_properties b) (Some v) (cb_derived_from b)
  | with_cluster_derived_from v => ClusterBuilder (cb_name b) (cb_description b) (cb_alternate_cluster b) (cb_header_struct_name b) (cb_address_offset b) (cb_default_properties b) (cb_children b) v
  end.

(** ** block: default svd-rs/src/addressblock.rs:66, 127-129 *)
Definition block_new : ab_builder := AbBuilder None None None None.
Inductive block_call : Type :=
(** 87-90 *) | with_block_offset (v : N)
(** 92-95 *) | with_block_size (v : N)
(** 97-100 *) | with_block_usage (v : ab_usage)
(** 102-105 *) | with_block_protection (v : option protection).
(** Setters svd-rs/src/addressblock.rs, at the lines above. *)
Definition block_set (c : block_call) (b : ab_builder) : ab_builder :=
  match c with
  | with_block_offset v => AbBuilder (Some v) (abb_size b) (abb_use b) (abb_protection b)
  | with_block_size v => AbBuilder (abb_offset b) (Some v) (abb_use b) (abb_protection b)
  | with_block_usage v => AbBuilder (abb_offset b) (abb_size b) (Some v) (abb_protection b)
  | with_block_protection v => AbBuilder (abb_offset b) (abb_size b) (abb_use b) v
  end.

(** ** interrupt: default svd-rs/src/interrupt.rs:23, 74-76 *)
Definition interrupt_new : it_builder := ItBuilder None None None.
Inductive interrupt_call : Type :=
(** 42-45 *) | with_interrupt_name (v : string)
(** 47-50 *) | with_interrupt_description (v : option string)
(** 52-55 *) | with_interrupt_value (v : N).
(** Setters svd-rs/src/interrupt.rs, at the lines above. *)
Definition interrupt_set (c : interrupt_call) (b : it_builder) : it_builder :=
  match c with
  | with_interrupt_name v => ItBuilder (Some v) (itb_description b) (itb_value b)
  | with_interrupt_description v => ItBuilder (itb_name b) v (itb_value b)
  | with_interrupt_value v => ItBuilder (itb_name b) (itb_description b) (Some v)
  end.

(** ** peripheral: default svd-rs/src/peripheral.rs:158, 305-307 *)
Definition peripheral_new : peripheral_builder := PeripheralBuilder None None None None None None None None None None rp_default None None None None.
Inductive peripheral_call : Type :=
(** 201-204 *) | with_peripheral_name (v : string)
(** 206-209 *) | with_peripheral_display_name (v : option string)
(** 211-214 *) | with_peripheral_version (v : option string)
(** 216-219 *) | with_peripheral_description (v : option string)
(** 221-224 *) | with_peripheral_alternate_peripheral (v : option string)
(** 226-229 *) | with_peripheral_group_name (v : option string)
(** 231-234 *) | with_peripheral_prepend_to_name (v : option string)
(** 236-239 *) | with_peripheral_append_to_name (v : option string)
(** 241-244 *) | with_peripheral_header_struct_name (v : option string)
(** 246-249 *) | with_peripheral_base_address (v : N)
(** 251-254 *) | with_peripheral_default_register_properties (v : reg_props)
(** 256-259 *) | with_peripheral_address_block (v : option (list address_block))
(** 261-264 *) | with_peripheral_interrupt (v : option (list interrupt))
(** 266-269 *) | with_peripheral_registers (v : option (list register_cluster))
(** 271-274 *) | with_peripheral_derived_from (v : option string).
(** Setters svd-rs/src/peripheral.rs, at the lines above. *)
Definition peripheral_set (c : peripheral_call) (b : peripheral_builder) : peripheral_builder :=
  match c with
  | with_peripheral_name v => PeripheralBuilder (Some v) (pb_display_name b) (pb_version b) (pb_description b) (pb_alternate_peripheral b) (pb_group_name b) (pb_prepend_to_name b) (pb_append_to_name b) (pb_header_struct_name b) (pb_base_address b) (pb_default_properties b) (pb_address_block b) (pb_interrupt b) (pb_registers b) (pb_derived_from b)
  | with_peripheral_display_name v => PeripheralBuilder (pb_name b) v (pb_version b) (pb_description b) (pb_alternate_peripheral b) (pb_group_name b) (pb_prepend_to_name b) (pb_append_to_name b) (pb_header_struct_name b) (pb_base_address b) (pb_default_properties b) (pb_address_block b) (pb_interrupt b) (pb_registers b) (pb_derived_from b)
  | with_peripheral_version v => PeripheralBuilder (pb_name b) (pb_display_name b) v (pb_description b) (pb_alternate_peripheral b) (pb_group_name b) (pb_prepend_to_name b) (pb_append_to_name b) (pb_header_struct_name b) (pb_base_address b) (pb_default_properties b) (pb_address_block b) (pb_interrupt b) (pb_registers b) (pb_derived_from b)
  | with_peripheral_description v => PeripheralBuilder (pb_name b) (pb_display_name b) (pb_version b) v (pb_alternate_peripheral b) (pb_group_name b) (pb_prepend_to_name b) (pb_append_to_name b) (pb_header_struct_name b) (pb_base_address b) (pb_default_properties b) (pb_address_block b) (pb_interrupt b) (pb_registers b) (pb_derived_from b)
  | with_peripheral_alternate_peripheral v => PeripheralBuilder (pb_name b) (pb_display_name b) (pb_version b) (pb_description b) v (pb_group_name b) (pb_prepend_to_name b) (pb_append_to_name b) (pb_header_struct_name b) (pb_base_address b) (pb_default_properties b) (pb_address_block b) (pb_interrupt b) (pb_registers b) (pb_derived_from b)
  | with_peripheral_group_name v => PeripheralBuilder (pb_name b) (pb_display_name b) (pb_version b) (pb_description b) (pb_alternate_peripheral b) v (pb_prepend_to_name b) (pb_append_to_name b) (pb_header_struct_name b) (pb_base_address b) (pb_default_properties b) (pb_address_block b) (pb_interrupt b) (pb_registers b) (pb_derived_from b)
  | with_peripheral_prepend_to_name v => PeripheralBuilder (pb_name b) (pb_display_name b) (pb_version b) (pb_description b) (pb_alternate_peripheral b) (pb_group_name b) v (pb_append_to_name b) (pb_header_struct_name b) (pb_base_address b) (pb_default_properties b) (pb_address_block b) (pb_interrupt b) (pb_registers b) (pb_derived_from b)
  | with_peripheral_append_to_name v => PeripheralBuilder (pb_name b) (pb_display_name b) (pb_version b) (pb_description b) (pb_alternate_peripheral b) (pb_group_name b) (pb_prepend_to_name b) v (pb_header_struct_name b) (pb_base_address b) (pb_default_properties b) (pb_address_block b) (pb_interrupt b) (pb_registers b) (pb_derived_from b)
  | with_peripheral_header_struct_name v => PeripheralBuilder (pb_name b) (pb_display_name b) (pb_version b) (pb_description b) (pb_alternate_peripheral b) (pb_group_name b) (pb_prepend_to_name b) (pb_append_to_name b) v (pb_base_address b) (pb_default_properties b) (pb_address_block b) (pb_interrupt b) (pb_registers b) (pb_derived_from b)
  | with_peripheral_base_address v => PeripheralBuilder (pb_name b) (pb_display_name b) (pb_version b) (pb_description b) (pb_alternate_peripheral b) (pb_group_name b) (pb_prepend_to_name b) (pb_append_to_name b) (pb_header_struct_name b) (Some v) (pb_default_properties b) (pb_address_block b) (pb_interrupt b) (pb_registers b) (pb_derived_from b)
  | with_peripheral_default_register_properties v => PeripheralBuilder (pb_name b) (pb_display_name b) (pb_version b) (pb_description b) (pb_alternate_peripheral b) (pb_group_name b) (pb_prepend_to_name b) (pb_append_to_name b) (pb_header_struct_name b) (pb_base_address b) v (pb_address_block b) (pb_interrupt b) (pb_registers b) (pb_derived_from b)
  | with_peripheral_address_block v => PeripheralBuilder (pb_name b) (pb_display_name b) (pb_version b) (pb_description b) (pb_alternate_peripheral b) (pb_group_name b) (pb_prepend_to_name b) (pb_append_to_name b) (pb_header_struct_name b) (pb_base_address b) (pb_default_properties b) v (pb_interrupt b) (pb_registers b) (pb_derived_from b)
  | with_peripheral_interrupt v => PeripheralBuilder (pb_name b) (pb_display_name b) (pb_version b) (pb_description b) (pb_alternate_peripheral b) (pb_group_name b) (pb_prepend_to_name b) (pb_append_to_name b) (pb_header_struct_name b) (pb_base_address b) (pb_default_properties b) (pb_address_block b) v (pb_registers b) (pb_derived_from b)
  | with_peripheral_registers v => PeripheralBuilder (pb_name b) (pb_display_name b) (pb_version b) (pb_description b) (pb_alternate_peripheral b) (pb_group_name b) (pb_prepend_to_name b) (pb_append_to_name b) (pb_header_struct_name b) (pb_base_address b) (pb_default_properties b) (pb_address_block b) (pb_interrupt b) v (pb_derived_from b)
  | with_peripheral_derived_from v => PeripheralBuilder (pb_name b) (pb_display_name b) (pb_version b) (pb_description b) (pb_alternate_peripheral b) (pb_group_name b) (pb_prepend_to_name b) (pb_append_to_name b) (pb_header_struct_name b) (pb_base_address b) (pb_default_properties b) (pb_address_block b) (pb_interrupt b) (pb_registers b) v
  end.

(** ** cpu: default svd-rs/src/cpu.rs:102, 267-269 *)
Definition cpu_new : cpu_builder := CpuBuilder None None None None None None None None None None None None None None None None.
Inductive cpu_call : Type :=
(** 147-150 *) | with_cpu_name (v : string)
(** 152-155 *) | with_cpu_revision (v : string)
(** 157-160 *) | with_cpu_endian (v : endian)
(** 162-165 *) | with_cpu_mpu_present (v : bool)
(** 167-170 *) | with_cpu_fpu_present (v : bool)
(** 172-175 *) | with_cpu_fpu_double_precision (v : option bool)
(** 177-180 *) | with_cpu_dsp_present (v : option bool)
(** 182-185 *) | with_cpu_icache_present (v : option bool)
(** 187-190 *) | with_cpu_dcache_present (v : option bool)
(** 192-195 *) | with_cpu_itcm_present (v : option bool)
(** 197-200 *) | with_cpu_dtcm_present (v : option bool)
(** 202-205 *) | with_cpu_vtor_present (v : option bool)
(** 207-210 *) | with_cpu_nvic_priority_bits (v : N)
(** 212-215 *) | with_cpu_has_vendor_systick (v : bool)
(** 217-220 *) | with_cpu_device_num_interrupts (v : option N)
(** 222-225 *) | with_cpu_sau_num_regions (v : option N).
(** Setters svd-rs/src/cpu.rs, at the lines above. *)
Definition cpu_set (c : cpu_call) (b : cpu_builder) : cpu_builder :=
  match c with
  | with_cpu_name v => CpuBuilder (Some v) (cpub_revision b) (cpub_endian b) (cpub_mpu_present b) (cpub_fpu_present b) (cpub_fpu_double_precision b) (cpub_dsp_present b) (cpub_icache_present b) (cpub_dcache_present b) (cpub_itcm_present b) (cpub_dtcm_present b) (cpub_vtor_present b) (cpub_nvic_priority_bits b) (cpub_has_vendor_systick b) (cpub_device_num_interrupts b) (cpub_sau_num_regions b)
  | with_cpu_revision v => CpuBuilder (cpub_name b) (Some v) (cpub_endian b) (cpub_mpu_present b) (cpub_fpu_present b) (cpub_fpu_double_precision b) (cpub_dsp_present b) (cpub_icache_present b) (cpub_dcache_present b) (cpub_itcm_present b) (cpub_dtcm_present b) (cpub_vtor_present b) (cpub_nvic_priority_bits b) (cpub_has_vendor_systick b) (cpub_device_num_interrupts b) (cpub_sau_num_regions b)
  | with_cpu_endian v => CpuBuilder (cpub_name b) (cpub_revision b) (Some v) (cpub_mpu_present b) (cpub_fpu_present b) (cpub_fpu_double_precision b) (cpub_dsp_present b) (cpub_icache_present b) (cpub_dcache_present b) (cpub_itcm_present b) (cpub_dtcm_present b) (cpub_vtor_present b) (cpub_nvic_priority_bits b) (cpub_has_vendor_systick b) (cpub_device_num_interrupts b) (cpub_sau_num_regions b)
  | with_cpu_mpu_present v => CpuBuilder (cpub_name b) (cpub_revision b) (cpub_endian b) (Some v) (cpub_fpu_present b) (cpub_fpu_double_precision b) (cpub_dsp_present b) (cpub_icache_present b) (cpub_dcache_present b) (cpub_itcm_present b) (cpub_dtcm_present b) (cpub_vtor_present b) (cpub_nvic_priority_bits b) (cpub_has_vendor_systick b) (cpub_device_num_interrupts b) (cpub_sau_num_regions b)
  | with_cpu_fpu_present v => CpuBuilder (cpub_name b) (cpub_revision b) (cpub_endian b) (cpub_mpu_present b) (Some v) (cpub_fpu_double_precision b) (cpub_dsp_present b) (cpub_icache_present b) (cpub_dcache_present b) (cpub_itcm_present b) (cpub_dtcm_present b) (cpub_vtor_present b) (cpub_nvic_priority_bits b) (cpub_has_vendor_systick b) (cpub_device_num_interrupts b) (cpub_sau_num_regions b)
  | with_cpu_fpu_double_precision v => CpuBuilder (cpub_name b) (cpub_revision b) (cpub_endian b) (cpub_mpu_present b) (cpub_fpu_present b) v (cpub_dsp_present b) (cpub_icache_present b) (cpub_dcache_present b) (cpub_itcm_present b) (cpub_dtcm_present b) (cpub_vtor_present b) (cpub_nvic_priority_bits b) (cpub_has_vendor_systick b) (cpub_device_num_interrupts b) (cpub_sau_num_regions b)
  | with_cpu_dsp_present v => CpuBuilder (cpub_name b) (cpub_revision b) (cpub_endian b) (cpub_mpu_present b) (cpub_fpu_present b) (cpub_fpu_double_precision b) v (cpub_icache_present b) (cpub_dcache_present b) (cpub_itcm_present b) (cpub_dtcm_present b) (cpub_vtor_present b) (cpub_nvic_priority_bits b) (cpub_has_vendor_systick b) (cpub_device_num_interrupts b) (cpub_sau_num_regions b)
  | with_cpu_icache_present v => CpuBuilder (cpub_name b) (cpub_revision b) (cpub_endian b) (cpub_mpu_present b) (cpub_fpu_present b) (cpub_fpu_double_precision b) (cpub_dsp_present b) v (cpub_dcache_present b) (cpub_itcm_present b) (cpub_dtcm_present b) (cpub_vtor_present b) (cpub_nvic_priority_bits b) (cpub_has_vendor_systick b) (cpub_device_num_interrupts b) (cpub_sau_num_regions b)
  | with_cpu_dcache_present v => CpuBuilder (cpub_name b) (cpub_revision b) (cpub_endian b) (cpub_mpu_present b) (cpub_fpu_present b) (cpub_fpu_double_precision b) (cpub_dsp_present b) (cpub_icache_present b) v (cpub_itcm_present b) (cpub_dtcm_present b) (cpub_vtor_present b) (cpub_nvic_priority_bits b) (cpub_has_vendor_systick b) (cpub_device_num_interrupts b) (cpub_sau_num_regions b)
  | with_cpu_itcm_present v => CpuBuilder (cpub_name b) (cpub_revision b) (cpub_endian b) (cpub_mpu_present b) (cpub_fpu_present b) (cpub_fpu_double_precision b) (cpub_dsp_present b) (cpub_icache_present b) (cpub_dcache_present b) v (cpub_dtcm_present b) (cpub_vtor_present b) (cpub_nvic_priority_bits b) (cpub_has_vendor_systick b) (cpub_device_num_interrupts b) (cpub_sau_num_regions b)
  | with_cpu_dtcm_present v => CpuBuilder (cpub_name b) (cpub_revision b) (cpub_endian b) (cpub_mpu_present b) (cpub_fpu_present b) (cpub_fpu_double_precision b) (cpub_dsp_present b) (cpub_icache_present b) (cpub_dcache_present b) (cpub_itcm_present b) v (cpub_vtor_present b) (cpub_nvic_priority_bits b) (cpub_has_vendor_systick b) (cpub_device_num_interrupts b) (cpub_sau_num_regions b)
  | with_cpu_vtor_present v => CpuBuilder (cpub_name b) (cpub_revision b) (cpub_endian b) (cpub_mpu_present b) (cpub_fpu_present b) (cpub_fpu_double_precision b) (cpub_dsp_present b) (cpub_icache_present b) (cpub_dcache_present b) (cpub_itcm_present b) (cpub_dtcm_present b) v (cpub_nvic_priority_bits b) (cpub_has_vendor_systick b) (cpub_device_num_interrupts b) (cpub_sau_num_regions b)
  | with_cpu_nvic_priority_bits v => CpuBuilder (cpub_name b) (cpub_revision b) (cpub_endian b) (cpub_mpu_present b) (cpub_fpu_present b) (cpub_fpu_double_precision b) (cpub_dsp_present b) (cpub_icache_present b) (cpub_dcache_present b) (cpub_itcm_present b) (cpub_dtcm_present b) (cpub_vtor_present b) (Some v) (cpub_has_vendor_systick b) (cpub_device_num_interrupts b) (cpub_sau_num_regions b)
  | with_cpu_has_vendor_systick v => CpuBuilder (cpub_name b) (cpub_revision b) (cpub_endian b) (cpub_mpu_present b) (cpub_fpu_present b) (cpub_fpu_double_precision b) (cpub_dsp_present b) (cpub_icache_present b) (cpub_dcache_present b) (cpub_itcm_present b) (cpub_dtcm_present b) (cpub_vtor_present b) (cpub_nvic_priority_bits b) (Some v) (cpub_device_num_interrupts b) (cpub_sau_num_regions b)
  | with_cpu_device_num_interrupts v => CpuBuilder (cpub_name b) (cpub_revision b) (cpub_endian b) (cpub_mpu_present b) (cpub_fpu_present b) (cpub_fpu_double_precision b) (cpub_dsp_present b) (cpub_icache_present b) (cpub_dcache_present b) (cpub_itcm_present b) (cpub_dtcm_present b) (cpub_vtor_present b) (cpub_nvic_priority_bits b) (cpub_has_vendor_systick b) v (cpub_sau_num_regions b)
  | with_cpu_sau_num_regions v => CpuBuilder (cpub_name b) (cpub_revision b) (cpub_endian b) (cpub_mpu_present b) (cpub_fpu_present b) (cpub_fpu_double_precision b) (cpub_dsp_present b) (cpub_icache_present b) (cpub_dcache_present b) (cpub_itcm_present b) (cpub_dtcm_present b) (cpub_vtor_present b) (cpub_nvic_priority_bits b) (cpub_has_vendor_systick b) (cpub_device_num_interrupts b) v
  end.

(** ** device: default svd-rs/src/device.rs:124, 314-316 *)
Definition device_new : device_builder := DeviceBuilder None None None None None None None None None None None None rp_default None None None None.
Inductive device_call : Type :=
(** 171-174 *) | with_device_vendor (v : option string)
(** 176-179 *) | with_device_vendor_id (v : option string)
(** 181-184 *) | with_device_name (v : string)
(** 186-189 *) | with_device_series (v : option string)
(** 191-194 *) | with_device_version (v : string)
(** 196-199 *) | with_device_description (v : string)
(** 201-204 *) | with_device_license_text (v : option string)
(** 206-209 *) | with_device_cpu (v : option cpu)
(** 211-214 *) | with_device_header_system_filename (v : option string)
(** 216-219 *) | with_device_header_definitions_prefix (v : option string)
(** 221-224 *) | with_device_address_unit_bits (v : N)
(** 226-229 *) | with_device_width (v : N)
(** 231-234 *) | with_device_default_register_properties (v : reg_props)
(** 236-239 *) | with_device_peripherals (v : list peripheral)
(** 241-244 *) | with_device_xmlns_xs (v : string)
(** 246-249 *) | with_device_no_namespace_schema_location (v : string)
(** 251-254 *) | with_device_schema_version (v : string).
(** Setters svd-rs/src/device.rs, at the lines above. *)
Definition device_set (c : device_call) (b : device_builder) : device_builder :=
  match c with
  | with_device_vendor v => DeviceBuilder v (db_vendor_id b) (db_name b) (db_series b) (db_version b) (db_description b) (db_license_text b) (db_cpu b) (db_header_system_filename b) (db_header_definitions_prefix b) (db_address_unit_bits b) (db_width b) (db_default_properties b) (db_peripherals b) (db_xmlns_xs b) (db_no_namespace_schema_location b) (db_schema_version b)
  | with_device_vendor_id v => DeviceBuilder (db_vendor b) v (db_name b) (db_series b) (db_version b) (db_description b) (db_license_text b) (db_cpu b) (db_header_system_filename b) (db_header_definitions_prefix b) (db_address_unit_bits b) (db_width b) (db_default_properties b) (db_peripherals b) (db_xmlns_xs b) (db_no_namespace_schema_location b) (db_schema_version b)
  | with_device_name v => DeviceBuilder (db_vendor b) (db_vendor_id b) (Some v) (db_series b) (db_version b) (db_description b) (db_license_text b) (db_cpu b) (db_header_system_filename b) (db_header_definitions_prefix b) (db_address_unit_bits b) (db_width b) (db_default_properties b) (db_peripherals b) (db_xmlns_xs b) (db_no_namespace_schema_location b) (db_schema_version b)
  | with_device_series v => DeviceBuilder (db_vendor b) (db_vendor_id b) (db_name b) v (db_version b) (db_description b) (db_license_text b) (db_cpu b) (db_header_system_filename b) (db_header_definitions_prefix b) (db_address_unit_bits b) (db_width b) (db_default_properties b) (db_peripherals b) (db_xmlns_xs b) (db_no_namespace_schema_location b) (db_schema_version b)
  | with_device_version v => DeviceBuilder (db_vendor b) (db_vendor_id b) (db_name b) (db_series b) (Some v) (db_description b) (db_license_text b) (db_cpu b) (db_header_system_filename b) (db_header_definitions_prefix b) (db_address_unit_bits b) (db_width b) (db_default_properties b) (db_peripherals b) (db_xmlns_xs b) (db_no_namespace_schema_location b) (db_schema_version b)
  | with_device_description v => DeviceBuilder (db_vendor b) (db_vendor_id b) (db_name b) (db_series b) (db_version b) (Some v) (db_license_text b) (db_cpu b) (db_header_system_filename b) (db_header_definitions_prefix b) (db_address_unit_bits b) (db_width b) (db_default_properties b) (db_peripherals b) (db_xmlns_xs b) (db_no_namespace_schema_location b) (db_schema_version b)
  | with_device_license_text v => DeviceBuilder (db_vendor b) (db_vendor_id b) (db_name b) (db_series b) (db_version b) (db_description b) v (db_cpu b) (db_header_system_filename b) (db_header_definitions_prefix b) (db_address_unit_bits b) (db_width b) (db_default_properties b) (db_peripherals b) (db_xmlns_xs b) (db_no_namespace_schema_location b) (db_schema_version b)
  | with_device_cpu v => DeviceBuilder (db_vendor b) (db_vendor_id b) (db_name b) (db_series b) (db_version b) (db_description b) (db_license_text b) v (db_header_system_filename b) (db_header_definitions_prefix b) (db_address_unit_bits b) (db_width b) (db_default_properties b) (db_peripherals b) (db_xmlns_xs b) (db_no_namespace_schema_location b) (db_schema_version b)
  | with_device_header_system_filename v => DeviceBuilder (db_vendor b) (db_vendor_id b) (db_name b) (db_series b) (db_version b) (db_description b) (db_license_text b) (db_cpu b) v (db_header_definitions_prefix b) (db_address_unit_bits b) (db_width b) (db_default_properties b) (db_peripherals b) (db_xmlns_xs b) (db_no_namespace_schema_location b) (db_schema_version b)
  | with_device_header_definitions_prefix v => DeviceBuilder (db_vendor b) (db_vendor_id b) (db_name b) (db_series b) (db_version b) (db_description b) (db_license_text b) (db_cpu b) (db_header_system_filename b) v (db_address_unit_bits b) (db_width b) (db_default_properties b) (db_peripherals b) (db_xmlns_xs b) (db_no_namespace_schema_location b) (db_schema_version b)
  | with_device_address_unit_bits v => DeviceBuilder (db_vendor b) (db_vendor_id b) (db_name b) (db_series b) (db_version b) (db_description b) (db_license_text b) (db_cpu b) (db_header_system_filename b) (db_header_definitions_prefix b) (Some v) (db_width b) (db_default_properties b) (db_peripherals b) (db_xmlns_xs b) (db_no_namespace_schema_location b) (db_schema_version b)
  | with_device_width v => DeviceBuilder (db_vendor b) (db_vendor_id b) (db_name b) (db_series b) (db_version b) (db_description b) (db_license_text b) (db_cpu b) (db_header_system_filename b) (db_header_definitions_prefix b) (db_address_unit_bits b) (Some v) (db_default_properties b) (db_peripherals b) (db_xmlns_xs b) (db_no_namespace_schema_location b) (db_schema_version b)
  | with_device_default_register_properties v => DeviceBuilder (db_vendor b) (db_vendor_id b) (db_name b) (db_series b) (db_version b) (db_description b) (db_license_text b) (db_cpu b) (db_header_system_filename b) (db_header_definitions_prefix b) (db_address_unit_bits b) (db_width b) v (db_peripherals b) (db_xmlns_xs b) (db_no_namespace_schema_location b) (db_schema_version b)
  | with_device_peripherals v => DeviceBuilder (db_vendor b) (db_vendor_id b) (db_name b) (db_series b) (db_version b) (db_description b) (db_license_text b) (db_cpu b) (db_header_system_filename b) (db_header_definitions_prefix b) (db_address_unit_bits b) (db_width b) (db_default_properties b) (Some v) (db_xmlns_xs b) (db_no_namespace_schema_location b) (db_schema_version b)
  | with_device_xmlns_xs v => DeviceBuilder (db_vendor b) (db_vendor_id b) (db_name b) (db_series b) (db_version b) (db_description b) (db_license_text b) (db_cpu b) (db_header_system_filename b) (db_header_definitions_prefix b) (db_address_unit_bits b) (db_width b) (db_default_properties b) (db_peripherals b) (Some v) (db_no_namespace_schema_location b) (db_schema_version b)
  | with_device_no_namespace_schema_location v => DeviceBuilder (db_vendor b) (db_vendor_id b) (db_name b) (db_series b) (db_version b) (db_description b) (db_license_text b) (db_cpu b) (db_header_system_filename b) (db_header_definitions_prefix b) (db_address_unit_bits b) (db_width b) (db_default_properties b) (db_peripherals b) (db_xmlns_xs b) (Some v) (db_schema_version b)
  | with_device_schema_version v => DeviceBuilder (db_vendor b) (db_vendor_id b) (db_name b) (db_series b) (db_version b) (db_description b) (db_license_text b) (db_cpu b) (db_header_system_filename b) (db_header_definitions_prefix b) (db_address_unit_bits b) (db_width b) (db_default_properties b) (db_peripherals b) (db_xmlns_xs b) (db_no_namespace_schema_location b) (Some v)
  end.
