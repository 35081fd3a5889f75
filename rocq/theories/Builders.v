(** Builders: From, build and modify_from of every svd-rs type.
    A builder is a record. The three setters with logic (field bit_range, bit_offset,
    bit_width) are here; chains of all setters are in Setters.v.
    [modify_from] mutates self in place and may return early with an error; it is
    modelled as returning the mutated value together with the outcome. *)
From Verif Require Import Base Names Types Validate.

(** [if let Some(v) = builder.x { self.x = v; }] *)
Definition set_val {A} (b : option A) (old : A) : A := match b with Some v => v | None => old end.
(** [if builder.x.is_some() { self.x = builder.x; }] *)
Definition set_opt {A} (b old : option A) : option A := if is_some b then b else old.
(** [if builder.x.is_some() { self.x = builder.x.empty_to_none(); }] *)
Definition set_str (b old : option string) : option string :=
  if is_some b then empty_str_to_none b else old.
Definition set_vec {A} (b old : option (list A)) : option (list A) :=
  if is_some b then empty_vec_to_none b else old.
(** [.ok_or_else(|| BuildError::Uninitialized(what))?] *)
Definition required {A} (what : string) (o : option A) : res A := ok_or o (EUninitialized what).
(** [x.validate(lvl)?; Ok(x)] *)
Definition validated {A} (v : A -> res unit) (x : A) : res A := let* _ := v x in Ok x.

(** ** RegisterProperties: svd-rs/src/registerproperties.rs:124-127 and 68-89. The
    builder type is RegisterProperties itself. *)
Definition rp_build (l : level) (p : reg_props) : res reg_props := validated (rp_validate l) p.
Definition rp_modify (x b : reg_props) (l : level) : reg_props * res unit :=
  let x' := {| rp_size := set_opt (rp_size b) (rp_size x);
               rp_access := set_opt (rp_access b) (rp_access x);
               rp_protection := set_opt (rp_protection b) (rp_protection x);
               rp_reset_value := set_opt (rp_reset_value b) (rp_reset_value x);
               rp_reset_mask := set_opt (rp_reset_mask b) (rp_reset_mask x) |} in
  (x', rp_validate l x').

(** ** EnumeratedValue: builder svd-rs/src/enumeratedvalue.rs:48-65, build 90-101,
    modify_from 114-132 *)
Record ev_builder := EvBuilder {
  evb_name : option string; evb_description : option string;
  evb_value : option N; evb_is_default : option bool }.
Definition ev_to_builder (e : enumerated_value) : ev_builder :=
  {| evb_name := Some (ev_name e); evb_description := ev_description e;
     evb_value := ev_value e; evb_is_default := ev_is_default e |}.
Definition ev_build (l : level) (b : ev_builder) : res enumerated_value :=
  let* name := required "name" (evb_name b) in
  validated (ev_validate l)
    {| ev_name := name; ev_description := empty_str_to_none (evb_description b);
       ev_value := evb_value b; ev_is_default := evb_is_default b |}.
Definition ev_modify (x : enumerated_value) (b : ev_builder) (l : level) : enumerated_value * res unit :=
  let x' := {| ev_name := set_val (evb_name b) (ev_name x);
               ev_description := set_str (evb_description b) (ev_description x);
               ev_value := set_opt (evb_value b) (ev_value x);
               ev_is_default := set_opt (evb_is_default b) (ev_is_default x) |} in
  (x', ev_validate l x').

(** ** EnumeratedValues: builder svd-rs/src/enumeratedvalues.rs:48-64, build 88-97,
    modify_from 111-132 (which does not assign derived_from) *)
Record evs_builder := EvsBuilder {
  evsb_name : option string; evsb_usage : option usage;
  evsb_derived_from : option string; evsb_values : option (list enumerated_value) }.
Definition evs_to_builder (e : enumerated_values) : evs_builder :=
  {| evsb_name := evs_name e; evsb_usage := evs_usage e;
     evsb_derived_from := evs_derived_from e; evsb_values := Some (evs_values e) |}.
Definition evs_build (l : level) (b : evs_builder) : res enumerated_values :=
  validated (evs_validate l)
    {| evs_name := empty_str_to_none (evsb_name b); evs_usage := evsb_usage b;
       evs_derived_from := evsb_derived_from b; evs_values := opt_default [] (evsb_values b) |}.
Definition evs_modify (x : enumerated_values) (b : evs_builder) (l : level)
  : enumerated_values * res unit :=
  let x' :=
    if is_some (evsb_derived_from b)
    then {| evs_name := None; evs_usage := None;
            evs_derived_from := evs_derived_from x; evs_values := [] |}
    else {| evs_name := set_str (evsb_name b) (evs_name x);
            evs_usage := set_opt (evsb_usage b) (evs_usage x);
            evs_derived_from := evs_derived_from x;
            evs_values := set_val (evsb_values b) (evs_values x) |} in
  (x', evs_validate l x').

(** ** DimElement: builder svd-rs/src/dimelement.rs:73-91, build 120-134, modify_from
    192-213 *)
Record de_builder := DeBuilder {
  deb_dim : option N; deb_increment : option N; deb_index : option (list string);
  deb_name : option string; deb_array_index : option dim_array_index }.
Definition de_to_builder (d : dim_element) : de_builder :=
  {| deb_dim := Some (de_dim d); deb_increment := Some (de_increment d);
     deb_index := de_index d; deb_name := de_name d; deb_array_index := de_array_index d |}.
Definition de_build (l : level) (b : de_builder) : res dim_element :=
  let* dim := required "dim" (deb_dim b) in
  let* inc := required "dim_increment" (deb_increment b) in
  validated (de_validate l)
    {| de_dim := dim; de_increment := inc; de_index := empty_vec_to_none (deb_index b);
       de_name := empty_str_to_none (deb_name b); de_array_index := deb_array_index b |}.
Definition de_modify (x : dim_element) (b : de_builder) (l : level) : dim_element * res unit :=
  let x' := {| de_dim := set_val (deb_dim b) (de_dim x);
               de_increment := set_val (deb_increment b) (de_increment x);
               de_index := set_vec (deb_index b) (de_index x);
               de_name := set_str (deb_name b) (de_name x);
               de_array_index := set_opt (deb_array_index b) (de_array_index x) |} in
  (x', de_validate l x').

(** ** FieldInfo: builder svd-rs/src/field.rs:112-142, setters 156-185, build 217-235,
    modify_from 260-303 *)
Record field_builder := FieldBuilder {
  fb_name : option string; fb_description : option string;
  fb_bit_range : option bit_range; fb_bit_offset : option N; fb_bit_width : option N;
  fb_access : option access; fb_mwv : option mwv;
  fb_write_constraint : option write_constraint; fb_read_action : option read_action;
  fb_enumerated_values : option (list enumerated_values); fb_derived_from : option string }.
Definition field_builder_default : field_builder :=
  FieldBuilder None None None None None None None None None None None.
Definition field_to_builder (f : field_info) : field_builder :=
  {| fb_name := Some (f_name f); fb_description := f_description f;
     fb_bit_range := Some (f_bit_range f); fb_bit_offset := None; fb_bit_width := None;
     fb_access := f_access f; fb_mwv := f_mwv f; fb_write_constraint := f_write_constraint f;
     fb_read_action := f_read_action f; fb_enumerated_values := Some (f_enumerated_values f);
     fb_derived_from := f_derived_from f |}.
(** Assigning the three bit fields of the builder. *)
Definition fb_set_bits (b : field_builder) (r : option bit_range) (o w : option N) : field_builder :=
  {| fb_name := fb_name b; fb_description := fb_description b;
     fb_bit_range := r; fb_bit_offset := o; fb_bit_width := w;
     fb_access := fb_access b; fb_mwv := fb_mwv b; fb_write_constraint := fb_write_constraint b;
     fb_read_action := fb_read_action b; fb_enumerated_values := fb_enumerated_values b;
     fb_derived_from := fb_derived_from b |}.
(** field.rs:156-161 *)
Definition fb_set_bit_range (v : bit_range) (b : field_builder) : field_builder :=
  fb_set_bits b (Some v) None None.
(** field.rs:163-173, including the test of self.bit_offset (not bit_width) *)
Definition fb_set_bit_offset (v : N) (b : field_builder) : field_builder :=
  match fb_bit_range b with
  | Some r => fb_set_bits b (Some {| br_offset := v; br_width := br_width r; br_type := br_type r |})
                (fb_bit_offset b) (fb_bit_width b)
  | None =>
      match fb_bit_offset b with
      | Some width =>
          fb_set_bits b (Some {| br_offset := v; br_width := width; br_type := BRT_OffsetWidth |})
            (fb_bit_offset b) None
      | None => fb_set_bits b None (Some v) (fb_bit_width b)
      end
  end.
(** field.rs:175-185 *)
Definition fb_set_bit_width (v : N) (b : field_builder) : field_builder :=
  match fb_bit_range b with
  | Some r => fb_set_bits b (Some {| br_offset := br_offset r; br_width := v; br_type := br_type r |})
                (fb_bit_offset b) (fb_bit_width b)
  | None =>
      match fb_bit_offset b with
      | Some offset =>
          fb_set_bits b (Some {| br_offset := offset; br_width := v; br_type := BRT_OffsetWidth |})
            None (fb_bit_width b)
      | None => fb_set_bits b None (fb_bit_offset b) (Some v)
      end
  end.
Definition field_build (l : level) (b : field_builder) : res field_info :=
  let* name := required "name" (fb_name b) in
  let* br := required "bit_range" (fb_bit_range b) in
  validated (field_validate l)
    {| f_name := name; f_description := empty_str_to_none (fb_description b);
       f_bit_range := br; f_access := fb_access b; f_mwv := fb_mwv b;
       f_write_constraint := fb_write_constraint b; f_read_action := fb_read_action b;
       f_enumerated_values := opt_default [] (fb_enumerated_values b);
       f_derived_from := fb_derived_from b |}.
Definition field_modify (x : field_info) (b : field_builder) (l : level) : field_info * res unit :=
  let r := set_val (fb_bit_range b) (f_bit_range x) in
  let r := {| br_offset := set_val (fb_bit_offset b) (br_offset r);
              br_width := set_val (fb_bit_width b) (br_width r); br_type := br_type r |} in
  let d := is_some (fb_derived_from b) in
  let x' :=
    {| f_name := set_val (fb_name b) (f_name x);
       f_description := set_str (fb_description b) (f_description x);
       f_bit_range := r;
       f_access := set_opt (fb_access b) (f_access x);
       f_mwv := if d then None else set_opt (fb_mwv b) (f_mwv x);
       f_write_constraint := if d then None else set_opt (fb_write_constraint b) (f_write_constraint x);
       f_read_action := if d then f_read_action x else set_opt (fb_read_action b) (f_read_action x);
       f_enumerated_values := if d then []
                              else set_val (fb_enumerated_values b) (f_enumerated_values x);
       f_derived_from := if d then fb_derived_from b else f_derived_from x |} in
  (x', field_validate l x').

(** ** RegisterInfo: builder svd-rs/src/register.rs:145-179, build 268-290, modify_from
    315-364 *)
Record register_builder := RegisterBuilder {
  rb_name : option string; rb_display_name : option string; rb_description : option string;
  rb_alternate_group : option string; rb_alternate_register : option string;
  rb_address_offset : option N; rb_properties : reg_props; rb_datatype : option data_type;
  rb_mwv : option mwv; rb_write_constraint : option write_constraint;
  rb_read_action : option read_action; rb_fields : option (list field);
  rb_derived_from : option string }.
Definition register_to_builder (r : register_info) : register_builder :=
  {| rb_name := Some (r_name r); rb_display_name := r_display_name r;
     rb_description := r_description r; rb_alternate_group := r_alternate_group r;
     rb_alternate_register := r_alternate_register r;
     rb_address_offset := Some (r_address_offset r); rb_properties := r_properties r;
     rb_datatype := r_datatype r; rb_mwv := r_mwv r; rb_write_constraint := r_write_constraint r;
     rb_read_action := r_read_action r; rb_fields := r_fields r;
     rb_derived_from := r_derived_from r |}.
Definition register_build (l : level) (b : register_builder) : res register_info :=
  let* name := required "name" (rb_name b) in
  let* off := required "address_offset" (rb_address_offset b) in
  let* props := rp_build l (rb_properties b) in
  validated (register_validate l)
    {| r_name := name; r_display_name := rb_display_name b; r_description := rb_description b;
       r_alternate_group := rb_alternate_group b; r_alternate_register := rb_alternate_register b;
       r_address_offset := off; r_properties := props; r_datatype := rb_datatype b;
       r_mwv := rb_mwv b; r_write_constraint := rb_write_constraint b;
       r_read_action := rb_read_action b; r_fields := rb_fields b;
       r_derived_from := rb_derived_from b |}.
(** The assignments before the early return are those of the non-derived names and
    address, then properties; the ones after it happen only if the properties
    validated. *)
Definition register_modify (x : register_info) (b : register_builder) (l : level)
  : register_info * res unit :=
  let base props datatype mwv wc ra fields derived :=
    {| r_name := set_val (rb_name b) (r_name x);
       r_display_name := set_str (rb_display_name b) (r_display_name x);
       r_description := set_str (rb_description b) (r_description x);
       r_alternate_group := set_str (rb_alternate_group b) (r_alternate_group x);
       r_alternate_register := set_str (rb_alternate_register b) (r_alternate_register x);
       r_address_offset := set_val (rb_address_offset b) (r_address_offset x);
       r_properties := props; r_datatype := datatype; r_mwv := mwv; r_write_constraint := wc;
       r_read_action := ra; r_fields := fields; r_derived_from := derived |} in
  if is_some (rb_derived_from b) then
    let x' := base rp_default None None None (r_read_action x) None (rb_derived_from b) in
    (x', register_validate l x')
  else
    match rp_modify (r_properties x) (rb_properties b) l with
    | (p, Ok _) =>
        let x' := base p (set_opt (rb_datatype b) (r_datatype x)) (set_opt (rb_mwv b) (r_mwv x))
                    (set_opt (rb_write_constraint b) (r_write_constraint x))
                    (set_opt (rb_read_action b) (r_read_action x))
                    (set_vec (rb_fields b) (r_fields x)) (r_derived_from x) in
        (x', register_validate l x')
    | (p, e) =>
        (base p (r_datatype x) (r_mwv x) (r_write_constraint x) (r_read_action x) (r_fields x)
           (r_derived_from x), e)
    end.

(** ** ClusterInfo: builder svd-rs/src/cluster.rs:103-129, build 171-190, modify_from
    215-247 *)
Record cluster_builder := ClusterBuilder {
  cb_name : option string; cb_description : option string; cb_alternate_cluster : option string;
  cb_header_struct_name : option string; cb_address_offset : option N;
  cb_default_properties : reg_props; cb_children : option (list register_cluster);
  cb_derived_from : option string }.
Definition cluster_to_builder (c : cluster_info) : cluster_builder :=
  {| cb_name := Some (c_name c); cb_description := c_description c;
     cb_alternate_cluster := c_alternate_cluster c;
     cb_header_struct_name := c_header_struct_name c;
     cb_address_offset := Some (c_address_offset c);
     cb_default_properties := c_default_properties c; cb_children := Some (c_children c);
     cb_derived_from := c_derived_from c |}.
Definition cluster_build (l : level) (b : cluster_builder) : res cluster_info :=
  let* name := required "name" (cb_name b) in
  let* off := required "address_offset" (cb_address_offset b) in
  let* props := rp_build l (cb_default_properties b) in
  let* ch := required "children" (cb_children b) in
  validated (cluster_validate l)
    {| c_name := name; c_description := empty_str_to_none (cb_description b);
       c_alternate_cluster := empty_str_to_none (cb_alternate_cluster b);
       c_header_struct_name := empty_str_to_none (cb_header_struct_name b);
       c_address_offset := off; c_default_properties := props; c_children := ch;
       c_derived_from := cb_derived_from b |}.
Definition cluster_modify (x : cluster_info) (b : cluster_builder) (l : level)
  : cluster_info * res unit :=
  let base props children derived :=
    {| c_name := set_val (cb_name b) (c_name x);
       c_description := set_str (cb_description b) (c_description x);
       c_alternate_cluster := set_str (cb_alternate_cluster b) (c_alternate_cluster x);
       c_header_struct_name := set_str (cb_header_struct_name b) (c_header_struct_name x);
       c_address_offset := set_val (cb_address_offset b) (c_address_offset x);
       c_default_properties := props; c_children := children; c_derived_from := derived |} in
  if is_some (cb_derived_from b) then
    let x' := base rp_default [] (cb_derived_from b) in (x', cluster_validate l x')
  else
    match rp_modify (c_default_properties x) (cb_default_properties b) l with
    | (p, Ok _) =>
        let x' := base p (set_val (cb_children b) (c_children x)) (c_derived_from x) in
        (x', cluster_validate l x')
    | (p, e) => (base p (c_children x) (c_derived_from x), e)
    end.

(** ** AddressBlock: builder svd-rs/src/addressblock.rs:66-83, build 107-122, modify_from
    131-149 *)
Record ab_builder := AbBuilder {
  abb_offset : option N; abb_size : option N; abb_use : option ab_usage;
  abb_protection : option protection }.
Definition ab_to_builder (a : address_block) : ab_builder :=
  {| abb_offset := Some (ab_offset a); abb_size := Some (ab_size a); abb_use := Some (ab_use a);
     abb_protection := ab_protection a |}.
Definition ab_build (l : level) (b : ab_builder) : res address_block :=
  let* o := required "offset" (abb_offset b) in
  let* s := required "size" (abb_size b) in
  let* u := required "usage" (abb_use b) in
  validated (ab_validate l)
    {| ab_offset := o; ab_size := s; ab_use := u; ab_protection := abb_protection b |}.
Definition ab_modify (x : address_block) (b : ab_builder) (l : level) : address_block * res unit :=
  let x' := {| ab_offset := set_val (abb_offset b) (ab_offset x);
               ab_size := set_val (abb_size b) (ab_size x);
               ab_use := set_val (abb_use b) (ab_use x);
               ab_protection := set_opt (abb_protection b) (ab_protection x) |} in
  (x', ab_validate l x').

(** ** Interrupt: builder svd-rs/src/interrupt.rs:22-38, build 56-69, modify_from 78-94 *)
Record it_builder := ItBuilder {
  itb_name : option string; itb_description : option string; itb_value : option N }.
Definition it_to_builder (i : interrupt) : it_builder :=
  {| itb_name := Some (it_name i); itb_description := it_description i;
     itb_value := Some (it_value i) |}.
Definition it_build (l : level) (b : it_builder) : res interrupt :=
  let* n := required "name" (itb_name b) in
  let* v := required "value" (itb_value b) in
  validated (it_validate l)
    {| it_name := n; it_description := itb_description b; it_value := v |}.
Definition it_modify (x : interrupt) (b : it_builder) (l : level) : interrupt * res unit :=
  let x' := {| it_name := set_val (itb_name b) (it_name x);
               it_description := set_opt (itb_description b) (it_description x);
               it_value := set_val (itb_value b) (it_value x) |} in
  (x', it_validate l x').

(** ** PeripheralInfo: builder svd-rs/src/peripheral.rs:159-200, build 276-300,
    modify_from 325-379 *)
Record peripheral_builder := PeripheralBuilder {
  pb_name : option string; pb_display_name : option string; pb_version : option string;
  pb_description : option string; pb_alternate_peripheral : option string;
  pb_group_name : option string; pb_prepend_to_name : option string;
  pb_append_to_name : option string; pb_header_struct_name : option string;
  pb_base_address : option N; pb_default_properties : reg_props;
  pb_address_block : option (list address_block); pb_interrupt : option (list interrupt);
  pb_registers : option (list register_cluster); pb_derived_from : option string }.
Definition peripheral_to_builder (p : peripheral_info) : peripheral_builder :=
  {| pb_name := Some (p_name p); pb_display_name := p_display_name p; pb_version := p_version p;
     pb_description := p_description p; pb_alternate_peripheral := p_alternate_peripheral p;
     pb_group_name := p_group_name p; pb_prepend_to_name := p_prepend_to_name p;
     pb_append_to_name := p_append_to_name p; pb_header_struct_name := p_header_struct_name p;
     pb_base_address := Some (p_base_address p); pb_default_properties := p_default_properties p;
     pb_address_block := p_address_block p; pb_interrupt := Some (p_interrupt p);
     pb_registers := p_registers p; pb_derived_from := p_derived_from p |}.
Definition peripheral_build (l : level) (b : peripheral_builder) : res peripheral_info :=
  let* name := required "name" (pb_name b) in
  let* addr := required "base_address" (pb_base_address b) in
  let* props := rp_build l (pb_default_properties b) in
  validated (peripheral_validate l)
    {| p_name := name; p_display_name := empty_str_to_none (pb_display_name b);
       p_version := empty_str_to_none (pb_version b);
       p_description := empty_str_to_none (pb_description b);
       p_alternate_peripheral := empty_str_to_none (pb_alternate_peripheral b);
       p_group_name := empty_str_to_none (pb_group_name b);
       p_prepend_to_name := empty_str_to_none (pb_prepend_to_name b);
       p_append_to_name := empty_str_to_none (pb_append_to_name b);
       p_header_struct_name := empty_str_to_none (pb_header_struct_name b);
       p_base_address := addr; p_default_properties := props;
       p_address_block := pb_address_block b; p_interrupt := opt_default [] (pb_interrupt b);
       p_registers := pb_registers b; p_derived_from := pb_derived_from b |}.
Definition peripheral_modify (x : peripheral_info) (b : peripheral_builder) (l : level)
  : peripheral_info * res unit :=
  let base props blocks registers derived :=
    {| p_name := set_val (pb_name b) (p_name x);
       p_display_name := set_str (pb_display_name b) (p_display_name x);
       p_version := set_str (pb_version b) (p_version x);
       p_description := set_str (pb_description b) (p_description x);
       p_alternate_peripheral := set_str (pb_alternate_peripheral b) (p_alternate_peripheral x);
       p_group_name := set_str (pb_group_name b) (p_group_name x);
       p_prepend_to_name := set_str (pb_prepend_to_name b) (p_prepend_to_name x);
       p_append_to_name := set_str (pb_append_to_name b) (p_append_to_name x);
       p_header_struct_name := set_str (pb_header_struct_name b) (p_header_struct_name x);
       p_base_address := set_val (pb_base_address b) (p_base_address x);
       p_default_properties := props; p_address_block := blocks;
       p_interrupt := set_val (pb_interrupt b) (p_interrupt x);
       p_registers := registers; p_derived_from := derived |} in
  if is_some (pb_derived_from b) then
    let x' := base rp_default None None (pb_derived_from b) in (x', peripheral_validate l x')
  else
    let blocks := set_opt (pb_address_block b) (p_address_block x) in
    match rp_modify (p_default_properties x) (pb_default_properties b) l with
    | (p, Ok _) =>
        let x' := base p blocks (set_vec (pb_registers b) (p_registers x)) (p_derived_from x) in
        (x', peripheral_validate l x')
    | (p, e) => (base p blocks (p_registers x) (p_derived_from x), e)
    end.

(** ** Cpu: builder svd-rs/src/cpu.rs:103-145, build 227-262, modify_from 271-321 *)
Record cpu_builder := CpuBuilder {
  cpub_name : option string; cpub_revision : option string; cpub_endian : option endian;
  cpub_mpu_present : option bool; cpub_fpu_present : option bool;
  cpub_fpu_double_precision : option bool; cpub_dsp_present : option bool;
  cpub_icache_present : option bool; cpub_dcache_present : option bool;
  cpub_itcm_present : option bool; cpub_dtcm_present : option bool;
  cpub_vtor_present : option bool; cpub_nvic_priority_bits : option N;
  cpub_has_vendor_systick : option bool; cpub_device_num_interrupts : option N;
  cpub_sau_num_regions : option N }.
Definition cpu_to_builder (c : cpu) : cpu_builder :=
  {| cpub_name := Some (cpu_name c); cpub_revision := Some (cpu_revision c);
     cpub_endian := Some (cpu_endian c); cpub_mpu_present := Some (cpu_mpu_present c);
     cpub_fpu_present := Some (cpu_fpu_present c);
     cpub_fpu_double_precision := cpu_fpu_double_precision c;
     cpub_dsp_present := cpu_dsp_present c; cpub_icache_present := cpu_icache_present c;
     cpub_dcache_present := cpu_dcache_present c; cpub_itcm_present := cpu_itcm_present c;
     cpub_dtcm_present := cpu_dtcm_present c; cpub_vtor_present := cpu_vtor_present c;
     cpub_nvic_priority_bits := Some (cpu_nvic_priority_bits c);
     cpub_has_vendor_systick := Some (cpu_has_vendor_systick c);
     cpub_device_num_interrupts := cpu_device_num_interrupts c;
     cpub_sau_num_regions := cpu_sau_num_regions c |}.
Definition cpu_build (l : level) (b : cpu_builder) : res cpu :=
  let* name := required "name" (cpub_name b) in
  let* rev := required "revision" (cpub_revision b) in
  let* en := required "endian" (cpub_endian b) in
  let* mpu := required "mpu_present" (cpub_mpu_present b) in
  let* fpu := required "fpu_present" (cpub_fpu_present b) in
  let* nvic := required "nvic_priority_bits" (cpub_nvic_priority_bits b) in
  let* syst := required "has_vendor_systick" (cpub_has_vendor_systick b) in
  validated (cpu_validate l)
    {| cpu_name := name; cpu_revision := rev; cpu_endian := en; cpu_mpu_present := mpu;
       cpu_fpu_present := fpu; cpu_fpu_double_precision := cpub_fpu_double_precision b;
       cpu_dsp_present := cpub_dsp_present b; cpu_icache_present := cpub_icache_present b;
       cpu_dcache_present := cpub_dcache_present b; cpu_itcm_present := cpub_itcm_present b;
       cpu_dtcm_present := cpub_dtcm_present b; cpu_vtor_present := cpub_vtor_present b;
       cpu_nvic_priority_bits := nvic; cpu_has_vendor_systick := syst;
       cpu_device_num_interrupts := cpub_device_num_interrupts b;
       cpu_sau_num_regions := cpub_sau_num_regions b |}.
Definition cpu_modify (x : cpu) (b : cpu_builder) (l : level) : cpu * res unit :=
  let x' :=
    {| cpu_name := set_val (cpub_name b) (cpu_name x);
       cpu_revision := set_val (cpub_revision b) (cpu_revision x);
       cpu_endian := set_val (cpub_endian b) (cpu_endian x);
       cpu_mpu_present := set_val (cpub_mpu_present b) (cpu_mpu_present x);
       cpu_fpu_present := set_val (cpub_fpu_present b) (cpu_fpu_present x);
       cpu_fpu_double_precision := set_opt (cpub_fpu_double_precision b) (cpu_fpu_double_precision x);
       cpu_dsp_present := set_opt (cpub_dsp_present b) (cpu_dsp_present x);
       cpu_icache_present := set_opt (cpub_icache_present b) (cpu_icache_present x);
       cpu_dcache_present := set_opt (cpub_dcache_present b) (cpu_dcache_present x);
       cpu_itcm_present := set_opt (cpub_itcm_present b) (cpu_itcm_present x);
       cpu_dtcm_present := set_opt (cpub_dtcm_present b) (cpu_dtcm_present x);
       cpu_vtor_present := set_opt (cpub_vtor_present b) (cpu_vtor_present x);
       cpu_nvic_priority_bits := set_val (cpub_nvic_priority_bits b) (cpu_nvic_priority_bits x);
       cpu_has_vendor_systick := set_val (cpub_has_vendor_systick b) (cpu_has_vendor_systick x);
       cpu_device_num_interrupts :=
         set_opt (cpub_device_num_interrupts b) (cpu_device_num_interrupts x);
       cpu_sau_num_regions := set_opt (cpub_sau_num_regions b) (cpu_sau_num_regions x) |} in
  (x', cpu_validate l x').

(** ** Device: builder svd-rs/src/device.rs:125-168, defaults 110-121, build 256-309,
    modify_from 318-374. The default schema location is the constant that the format
    string yields. *)
Definition default_xmlns_xs : string := "http://www.w3.org/2001/XMLSchema-instance".
Definition default_schema_version : string := "1.1".
Definition default_schema_location : string :=
  ("CMSIS-SVD_Schema_" ++ replace "." "_" default_schema_version ++ ".xsd")%string.
Record device_builder := DeviceBuilder {
  db_vendor : option string; db_vendor_id : option string; db_name : option string;
  db_series : option string; db_version : option string; db_description : option string;
  db_license_text : option string; db_cpu : option cpu;
  db_header_system_filename : option string; db_header_definitions_prefix : option string;
  db_address_unit_bits : option N; db_width : option N; db_default_properties : reg_props;
  db_peripherals : option (list peripheral); db_xmlns_xs : option string;
  db_no_namespace_schema_location : option string; db_schema_version : option string }.
Definition device_to_builder (d : device) : device_builder :=
  {| db_vendor := d_vendor d; db_vendor_id := d_vendor_id d; db_name := Some (d_name d);
     db_series := d_series d; db_version := Some (d_version d);
     db_description := Some (d_description d); db_license_text := d_license_text d;
     db_cpu := d_cpu d; db_header_system_filename := d_header_system_filename d;
     db_header_definitions_prefix := d_header_definitions_prefix d;
     db_address_unit_bits := Some (d_address_unit_bits d); db_width := Some (d_width d);
     db_default_properties := d_default_properties d; db_peripherals := Some (d_peripherals d);
     db_xmlns_xs := Some (d_xmlns_xs d);
     db_no_namespace_schema_location := Some (d_no_namespace_schema_location d);
     db_schema_version := Some (d_schema_version d) |}.
(** [.or_else(|| if !lvl.is_strict() { Some(dflt) } else { None })] *)
Definition unless_strict {A} (l : level) (dflt : A) (o : option A) : option A :=
  opt_or o (if negb (is_strict l) then Some dflt else None).
Definition device_build (l : level) (b : device_builder) : res device :=
  let* name := required "name" (db_name b) in
  let* version := required "version" (unless_strict l "1.0" (db_version b)) in
  let* descr := required "description" (unless_strict l "" (db_description b)) in
  let* bits := required "addressUnitBits" (unless_strict l 8 (db_address_unit_bits b)) in
  let* width := required "width" (unless_strict l 32 (db_width b)) in
  let* props := rp_build l (db_default_properties b) in
  let* pers := required "peripherals" (db_peripherals b) in
  validated (device_validate l)
    {| d_vendor := db_vendor b; d_vendor_id := db_vendor_id b; d_name := name;
       d_series := db_series b; d_version := version; d_description := descr;
       d_license_text := db_license_text b; d_cpu := db_cpu b;
       d_header_system_filename := db_header_system_filename b;
       d_header_definitions_prefix := db_header_definitions_prefix b;
       d_address_unit_bits := bits; d_width := width; d_default_properties := props;
       d_peripherals := pers; d_xmlns_xs := opt_default default_xmlns_xs (db_xmlns_xs b);
       d_no_namespace_schema_location :=
         opt_default default_schema_location (db_no_namespace_schema_location b);
       d_schema_version := opt_default default_schema_version (db_schema_version b) |}.
Definition device_modify (x : device) (b : device_builder) (l : level) : device * res unit :=
  let base props pers xmlns loc ver :=
    {| d_vendor := set_str (db_vendor b) (d_vendor x);
       d_vendor_id := set_str (db_vendor_id b) (d_vendor_id x);
       d_name := set_val (db_name b) (d_name x);
       d_series := set_str (db_series b) (d_series x);
       d_version := set_val (db_version b) (d_version x);
       d_description := set_val (db_description b) (d_description x);
       d_license_text := set_str (db_license_text b) (d_license_text x);
       d_cpu := set_opt (db_cpu b) (d_cpu x);
       d_header_system_filename := set_str (db_header_system_filename b) (d_header_system_filename x);
       d_header_definitions_prefix :=
         set_str (db_header_definitions_prefix b) (d_header_definitions_prefix x);
       d_address_unit_bits := set_val (db_address_unit_bits b) (d_address_unit_bits x);
       d_width := set_val (db_width b) (d_width x);
       d_default_properties := props; d_peripherals := pers; d_xmlns_xs := xmlns;
       d_no_namespace_schema_location := loc; d_schema_version := ver |} in
  match rp_modify (d_default_properties x) (db_default_properties b) l with
  | (p, Ok _) =>
      let x' := base p (set_val (db_peripherals b) (d_peripherals x))
                  (set_val (db_xmlns_xs b) (d_xmlns_xs x))
                  (set_val (db_no_namespace_schema_location b) (d_no_namespace_schema_location x))
                  (set_val (db_schema_version b) (d_schema_version x)) in
      (x', device_validate l x')
  | (p, e) =>
      (base p (d_peripherals x) (d_xmlns_xs x) (d_no_namespace_schema_location x)
         (d_schema_version x), e)
  end.
