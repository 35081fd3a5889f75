(** C83: building an element call by call. *)
From Verif Require Import Base Types Names Validate Builders Setters SpecValidate SpecBuild SpecCalls ValidateProofs BuilderProofs CallProofs.

(** The element built by a chain of calls has, attribute by attribute, the value last
    given, and it is built exactly when what has to be given was given and the element is
    valid. *)
Theorem C83_props : forall l cs x,
  rp_build l (chain props_set rp_default cs) = Ok x <-> props_built cs x /\ props_ok l x.
Proof. exact props_chain. Qed.
Print Assumptions C83_props.
Theorem C83_value : forall l cs x,
  ev_build l (chain value_set value_new cs) = Ok x <-> value_built cs x /\ value_ok l x.
Proof. exact value_chain. Qed.
Print Assumptions C83_value.
Theorem C83_values : forall l cs x,
  evs_build l (chain values_set values_new cs) = Ok x <-> values_built cs x /\ values_ok l x.
Proof. exact values_chain. Qed.
Print Assumptions C83_values.
Theorem C83_dim : forall l cs x,
  de_build l (chain dim_set dim_new cs) = Ok x <-> dim_built cs x.
Proof. exact dim_chain. Qed.
Print Assumptions C83_dim.
Theorem C83_field : forall l cs x,
  field_build l (chain field_set field_new cs) = Ok x <-> field_built cs x /\ field_ok l x.
Proof. exact field_chain. Qed.
Print Assumptions C83_field.
Theorem C83_register : forall l cs x,
  register_build l (chain register_set register_new cs) = Ok x <-> register_built cs x /\ props_ok l (r_properties x) /\ register_ok l x.
Proof. exact register_chain. Qed.
Print Assumptions C83_register.
Theorem C83_cluster : forall l cs x,
  cluster_build l (chain cluster_set cluster_new cs) = Ok x <-> cluster_built cs x /\ props_ok l (c_default_properties x) /\ cluster_ok l x.
Proof. exact cluster_chain. Qed.
Print Assumptions C83_cluster.
Theorem C83_block : forall l cs x,
  ab_build l (chain block_set block_new cs) = Ok x <-> block_built cs x.
Proof. exact block_chain. Qed.
Print Assumptions C83_block.
Theorem C83_interrupt : forall l cs x,
  it_build l (chain interrupt_set interrupt_new cs) = Ok x <-> interrupt_built cs x.
Proof. exact interrupt_chain. Qed.
Print Assumptions C83_interrupt.
Theorem C83_peripheral : forall l cs x,
  peripheral_build l (chain peripheral_set peripheral_new cs) = Ok x <-> peripheral_built cs x /\ props_ok l (p_default_properties x) /\ peripheral_ok l x.
Proof. exact peripheral_chain. Qed.
Print Assumptions C83_peripheral.
Theorem C83_cpu : forall l cs x,
  cpu_build l (chain cpu_set cpu_new cs) = Ok x <-> cpu_built cs x.
Proof. exact cpu_chain. Qed.
Print Assumptions C83_cpu.
Theorem C83_device : forall l cs x,
  device_build l (chain device_set device_new cs) = Ok x <-> device_built l cs x /\ props_ok l (d_default_properties x) /\ device_ok l x.
Proof. exact device_chain. Qed.
Print Assumptions C83_device.
(** Calls of different setters can be exchanged anywhere in a chain. *)
Theorem C83_swap :
  (forall c c' (b : reg_props), props_setter c <> props_setter c' -> props_set c (props_set c' b) = props_set c' (props_set c b)) /\
  (forall c c' (b : ev_builder), value_setter c <> value_setter c' -> value_set c (value_set c' b) = value_set c' (value_set c b)) /\
  (forall c c' (b : evs_builder), values_setter c <> values_setter c' -> values_set c (values_set c' b) = values_set c' (values_set c b)) /\
  (forall c c' (b : de_builder), dim_setter c <> dim_setter c' -> dim_set c (dim_set c' b) = dim_set c' (dim_set c b)) /\
  (forall c c' (b : field_builder), field_apart c c' -> field_set c (field_set c' b) = field_set c' (field_set c b)) /\
  (forall c c' (b : register_builder), register_apart c c' -> register_set c (register_set c' b) = register_set c' (register_set c b)) /\
  (forall c c' (b : cluster_builder), cluster_setter c <> cluster_setter c' -> cluster_set c (cluster_set c' b) = cluster_set c' (cluster_set c b)) /\
  (forall c c' (b : ab_builder), block_setter c <> block_setter c' -> block_set c (block_set c' b) = block_set c' (block_set c b)) /\
  (forall c c' (b : it_builder), interrupt_setter c <> interrupt_setter c' -> interrupt_set c (interrupt_set c' b) = interrupt_set c' (interrupt_set c b)) /\
  (forall c c' (b : peripheral_builder), peripheral_setter c <> peripheral_setter c' -> peripheral_set c (peripheral_set c' b) = peripheral_set c' (peripheral_set c b)) /\
  (forall c c' (b : cpu_builder), cpu_setter c <> cpu_setter c' -> cpu_set c (cpu_set c' b) = cpu_set c' (cpu_set c b)) /\
  (forall c c' (b : device_builder), device_setter c <> device_setter c' -> device_set c (device_set c' b) = device_set c' (device_set c b)).
Proof. exact (conj props_swap (conj value_swap (conj values_swap (conj dim_swap (conj field_swap (conj register_swap (conj cluster_swap (conj block_swap (conj interrupt_swap (conj peripheral_swap (conj cpu_swap (device_swap)))))))))))). Qed.
Print Assumptions C83_swap.
(** Every valid element can be built by calls (its texts being tidy where the builder
    tidies them). *)
Theorem C83_complete :
  (forall l (x : enumerated_value), tidy_value x = x -> value_ok l x -> exists cs, ev_build l (chain value_set value_new cs) = Ok x) /\
  (forall l (x : enumerated_values), tidy_values x = x -> values_ok l x -> exists cs, evs_build l (chain values_set values_new cs) = Ok x) /\
  (forall l (x : dim_element), tidy_dim x = x -> exists cs, de_build l (chain dim_set dim_new cs) = Ok x) /\
  (forall l (x : field_info), tidy_field x = x -> field_ok l x -> exists cs, field_build l (chain field_set field_new cs) = Ok x) /\
  (forall l (x : register_info), props_ok l (r_properties x) -> register_ok l x -> exists cs, register_build l (chain register_set register_new cs) = Ok x) /\
  (forall l (x : cluster_info), tidy_cluster x = x -> props_ok l (c_default_properties x) -> cluster_ok l x -> exists cs, cluster_build l (chain cluster_set cluster_new cs) = Ok x) /\
  (forall l (x : address_block), exists cs, ab_build l (chain block_set block_new cs) = Ok x) /\
  (forall l (x : interrupt), exists cs, it_build l (chain interrupt_set interrupt_new cs) = Ok x) /\
  (forall l (x : peripheral_info), tidy_peripheral x = x -> props_ok l (p_default_properties x) -> peripheral_ok l x -> exists cs, peripheral_build l (chain peripheral_set peripheral_new cs) = Ok x) /\
  (forall l (x : cpu), exists cs, cpu_build l (chain cpu_set cpu_new cs) = Ok x) /\
  (forall l (x : device), props_ok l (d_default_properties x) -> device_ok l x -> exists cs, device_build l (chain device_set device_new cs) = Ok x).
Proof.
  repeat apply conj.
  - intros l x H0 H1. exists [with_value_name (ev_name x); with_value_description (ev_description x); with_value_value (ev_value x); with_value_is_default (ev_is_default x)].
    change (chain value_set value_new _) with (ev_to_builder x). apply value_rt; repeat match goal with H : _ = x |- _ => rewrite H end; auto.
  - intros l x H0 H1. exists [with_values_name (evs_name x); with_values_usage (evs_usage x); with_values_derived_from (evs_derived_from x); with_values_values (evs_values x)].
    change (chain values_set values_new _) with (evs_to_builder x). apply values_rt; repeat match goal with H : _ = x |- _ => rewrite H end; auto.
  - intros l x H0. exists [with_dim_dim (de_dim x); with_dim_dim_increment (de_increment x); with_dim_dim_index (de_index x); with_dim_dim_name (de_name x); with_dim_dim_array_index (de_array_index x)].
    change (chain dim_set dim_new _) with (de_to_builder x). rewrite dim_rt; auto; f_equal; auto.
  - intros l x H0 H1. exists [with_field_name (f_name x); with_field_description (f_description x); with_field_bit_range (f_bit_range x); with_field_access (f_access x); with_field_modified_write_values (f_mwv x); with_field_write_constraint (f_write_constraint x); with_field_read_action (f_read_action x); with_field_enumerated_values (f_enumerated_values x); with_field_derived_from (f_derived_from x)].
    change (chain field_set field_new _) with (field_to_builder x). apply field_rt; repeat match goal with H : _ = x |- _ => rewrite H end; auto.
  - intros l x H0 H1. exists [with_register_name (r_name x); with_register_display_name (r_display_name x); with_register_description (r_description x); with_register_alternate_group (r_alternate_group x); with_register_alternate_register (r_alternate_register x); with_register_address_offset (r_address_offset x); with_register_properties (r_properties x); with_register_datatype (r_datatype x); with_register_modified_write_values (r_mwv x); with_register_write_constraint (r_write_constraint x); with_register_read_action (r_read_action x); with_register_fields (r_fields x); with_register_derived_from (r_derived_from x)].
    change (chain register_set register_new _) with (register_to_builder x). apply register_rt; repeat match goal with H : _ = x |- _ => rewrite H end; auto.
  - intros l x H0 H1 H2. exists [with_cluster_name (c_name x); with_cluster_description (c_description x); with_cluster_alternate_cluster (c_alternate_cluster x); with_cluster_header_struct_name (c_header_struct_name x); with_cluster_address_offset (c_address_offset x); with_cluster_default_register_properties (c_default_properties x); with_cluster_children (c_children x); with_cluster_derived_from (c_derived_from x)].
    change (chain cluster_set cluster_new _) with (cluster_to_builder x). apply cluster_rt; repeat match goal with H : _ = x |- _ => rewrite H end; auto.
  - intros l x . exists [with_block_offset (ab_offset x); with_block_size (ab_size x); with_block_usage (ab_use x); with_block_protection (ab_protection x)].
    change (chain block_set block_new _) with (ab_to_builder x). rewrite block_rt; auto; f_equal; auto.
  - intros l x . exists [with_interrupt_name (it_name x); with_interrupt_description (it_description x); with_interrupt_value (it_value x)].
    change (chain interrupt_set interrupt_new _) with (it_to_builder x). rewrite interrupt_rt; auto; f_equal; auto.
  - intros l x H0 H1 H2. exists [with_peripheral_name (p_name x); with_peripheral_display_name (p_display_name x); with_peripheral_version (p_version x); with_peripheral_description (p_description x); with_peripheral_alternate_peripheral (p_alternate_peripheral x); with_peripheral_group_name (p_group_name x); with_peripheral_prepend_to_name (p_prepend_to_name x); with_peripheral_append_to_name (p_append_to_name x); with_peripheral_header_struct_name (p_header_struct_name x); with_peripheral_base_address (p_base_address x); with_peripheral_default_register_properties (p_default_properties x); with_peripheral_address_block (p_address_block x); with_peripheral_interrupt (Some (p_interrupt x)); with_peripheral_registers (p_registers x); with_peripheral_derived_from (p_derived_from x)].
    change (chain peripheral_set peripheral_new _) with (peripheral_to_builder x). apply peripheral_rt; repeat match goal with H : _ = x |- _ => rewrite H end; auto.
  - intros l x . exists [with_cpu_name (cpu_name x); with_cpu_revision (cpu_revision x); with_cpu_endian (cpu_endian x); with_cpu_mpu_present (cpu_mpu_present x); with_cpu_fpu_present (cpu_fpu_present x); with_cpu_fpu_double_precision (cpu_fpu_double_precision x); with_cpu_dsp_present (cpu_dsp_present x); with_cpu_icache_present (cpu_icache_present x); with_cpu_dcache_present (cpu_dcache_present x); with_cpu_itcm_present (cpu_itcm_present x); with_cpu_dtcm_present (cpu_dtcm_present x); with_cpu_vtor_present (cpu_vtor_present x); with_cpu_nvic_priority_bits (cpu_nvic_priority_bits x); with_cpu_has_vendor_systick (cpu_has_vendor_systick x); with_cpu_device_num_interrupts (cpu_device_num_interrupts x); with_cpu_sau_num_regions (cpu_sau_num_regions x)].
    change (chain cpu_set cpu_new _) with (cpu_to_builder x). rewrite cpu_rt; auto; f_equal; auto.
  - intros l x H0 H1. exists [with_device_vendor (d_vendor x); with_device_vendor_id (d_vendor_id x); with_device_name (d_name x); with_device_series (d_series x); with_device_version (d_version x); with_device_description (d_description x); with_device_license_text (d_license_text x); with_device_cpu (d_cpu x); with_device_header_system_filename (d_header_system_filename x); with_device_header_definitions_prefix (d_header_definitions_prefix x); with_device_address_unit_bits (d_address_unit_bits x); with_device_width (d_width x); with_device_default_register_properties (d_default_properties x); with_device_peripherals (d_peripherals x); with_device_xmlns_xs (d_xmlns_xs x); with_device_no_namespace_schema_location (d_no_namespace_schema_location x); with_device_schema_version (d_schema_version x)].
    change (chain device_set device_new _) with (device_to_builder x). apply device_rt; repeat match goal with H : _ = x |- _ => rewrite H end; auto.
Qed.
Print Assumptions C83_complete.
(** A chain that overrides, clears and interleaves; the protection of a register can only
    be given with all its properties; a chain whose field bits are given width first is
    refused (C24). *)
Example C83_example :
  register_build Strict (chain register_set register_new [with_register_size (Some 8); with_register_name "A"; with_register_reset_value (Some 255);
    with_register_properties (RegProps (Some 16) None (Some Secure) (Some 3) None); with_register_address_offset 4;
    with_register_name "B"; with_register_description (Some "x"); with_register_description None; with_register_reset_mask (Some 7)]) =
  Ok (RegisterInfo "B" None None None None 4 (RegProps (Some 16) None (Some Secure) (Some 3) (Some 7)) None None None None None None) /\
  field_build Strict (chain field_set field_new [with_field_bit_width 9; with_field_name "F"; with_field_bit_offset 5; with_field_access None;
    with_field_bit_width 1; with_field_bit_offset 6; with_field_bit_width 2]) =
  Ok (FieldInfo "F" None (BitRange 6 2 BRT_OffsetWidth) None None None None [] None) /\
  field_build Weak (chain field_set field_new [with_field_bit_width 2; with_field_name "F"; with_field_bit_offset 6]) =
  Err (EUninitialized "bit_range").
Proof. repeat apply conj; vm_compute; reflexivity. Qed.
