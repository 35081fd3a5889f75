(** What writing a description with a configuration makes of it, and which
    descriptions an SVD file can express. *)
From Coq Require Import List NArith String Ascii Permutation.
Import ListNotations.
From Verif Require Import Base Types Config Sort Xml SpecArray SpecText SpecXml SpecValidate SpecBuild SpecParse SpecSort.
Open Scope N_scope.

(** ** The description a written file stands for: names in the configured case, bit
    ranges in the configured notation, lists in the configured order, empty optional
    texts and empty lists of fields and address blocks left out. *)
Section Written.
  Variable m : mode.
  Variable conv : id_format -> string -> string.
  Variable cfg : config.
  Definition cased (c : option id_format) (s : string) : string := change_case conv s c.

  Definition w_value (e : enumerated_value) : enumerated_value :=
    {| ev_name := cased (cfg_enumerated_value_name cfg) (ev_name e);
       ev_description := tidy_text (ev_description e);
       ev_value := ev_value e; ev_is_default := ev_is_default e |}.
  Definition w_values (e : enumerated_values) : enumerated_values :=
    {| evs_name := tidy_text (option_map (cased (cfg_enumerated_values_name cfg)) (evs_name e));
       evs_usage := evs_usage e;
       evs_derived_from := option_map (cased (cfg_enumerated_values_name cfg)) (evs_derived_from e);
       evs_values := map w_value (evs_values e) |}.
  Definition w_dai (d : dim_array_index) : dim_array_index :=
    {| dai_header_enum_name :=
         tidy_text (option_map (cased (cfg_dim_array_index_header_enum_name cfg)) (dai_header_enum_name d));
       dai_values := map w_value (dai_values d) |}.
  Definition w_dim (d : dim_element) : dim_element :=
    {| de_dim := de_dim d; de_increment := de_increment d; de_index := de_index d;
       de_name := tidy_text (de_name d); de_array_index := option_map w_dai (de_array_index d) |}.
  Definition w_any {A} (f : A -> A) (x : maybe_array A) : maybe_array A :=
    match x with Single a => Single (f a) | Array a d => Array (f a) (w_dim d) end.
  Definition w_bits (b : bit_range) : bit_range :=
    {| br_offset := br_offset b; br_width := br_width b;
       br_type := opt_default (br_type b) (cfg_field_bit_range cfg) |}.
  Definition w_field (f : field_info) : field_info :=
    {| f_name := cased (cfg_field_name cfg) (f_name f); f_description := tidy_text (f_description f);
       f_bit_range := w_bits (f_bit_range f); f_access := f_access f; f_mwv := f_mwv f;
       f_write_constraint := f_write_constraint f; f_read_action := f_read_action f;
       f_enumerated_values := map w_values (f_enumerated_values f);
       f_derived_from := option_map (cased (cfg_field_name cfg)) (f_derived_from f) |}.
  Definition w_register (r : register_info) (fields : option (list field)) : register_info :=
    {| r_name := cased (cfg_register_name cfg) (r_name r); r_display_name := tidy_text (r_display_name r);
       r_description := tidy_text (r_description r); r_alternate_group := tidy_text (r_alternate_group r);
       r_alternate_register := tidy_text (option_map (cased (cfg_register_name cfg)) (r_alternate_register r));
       r_address_offset := r_address_offset r; r_properties := r_properties r; r_datatype := r_datatype r;
       r_mwv := r_mwv r; r_write_constraint := r_write_constraint r; r_read_action := r_read_action r;
       r_fields := fields;
       r_derived_from := option_map (cased (cfg_register_name cfg)) (r_derived_from r) |}.
  (** The fields in written order; sorting can fail (C29). *)
  Definition w_fields (r : register_info) : res (option (list field)) :=
    match r_fields r with
    | None => Ok None
    | Some v => let* s := sort_fields m (cfg_field_sorting cfg) v in
                Ok (tidy_list (Some (map (w_any w_field) s)))
    end.
  Definition w_cluster (c : cluster_info) (l : list register_cluster) : cluster_info :=
    {| c_name := cased (cfg_cluster_name cfg) (c_name c); c_description := tidy_text (c_description c);
       c_alternate_cluster := tidy_text (option_map (cased (cfg_cluster_name cfg)) (c_alternate_cluster c));
       c_header_struct_name := tidy_text (c_header_struct_name c);
       c_address_offset := c_address_offset c; c_default_properties := c_default_properties c;
       c_children := l; c_derived_from := option_map (cased (cfg_cluster_name cfg)) (c_derived_from c) |}.
  Fixpoint w_rc (rc : register_cluster) : res register_cluster :=
    match rc with
    | RCRegister r =>
        let* fs := w_fields (info r) in Ok (RCRegister (w_any (fun i => w_register i fs) r))
    | RCCluster c =>
        let* l := mapM w_rc (c_children (info c)) in Ok (RCCluster (w_any (fun i => w_cluster i l) c))
    end.
  Definition w_interrupt (i : interrupt) : interrupt :=
    {| it_name := cased (cfg_interrupt_name cfg) (it_name i);
       it_description := tidy_text (it_description i); it_value := it_value i |}.
  Definition w_peripheral (p : peripheral_info) (regs : option (list register_cluster)) : peripheral_info :=
    let name v := cased (cfg_peripheral_name cfg) v in
    {| p_name := name (p_name p); p_display_name := tidy_text (p_display_name p);
       p_version := tidy_text (p_version p); p_description := tidy_text (p_description p);
       p_alternate_peripheral := tidy_text (option_map name (p_alternate_peripheral p));
       p_group_name := tidy_text (p_group_name p);
       p_prepend_to_name := tidy_text (option_map name (p_prepend_to_name p));
       p_append_to_name := tidy_text (option_map name (p_append_to_name p));
       p_header_struct_name := tidy_text (option_map name (p_header_struct_name p));
       p_base_address := p_base_address p; p_default_properties := p_default_properties p;
       p_address_block := tidy_list (p_address_block p); p_interrupt := map w_interrupt (p_interrupt p);
       p_registers := regs; p_derived_from := option_map name (p_derived_from p) |}.
  Definition w_registers (p : peripheral_info) : res (option (list register_cluster)) :=
    match p_registers p with
    | None => Ok None
    | Some v => let* s := sort_registers m (cfg_register_cluster_sorting cfg) v in
                let* l := mapM w_rc s in Ok (Some l)
    end.
  Definition w_peripheral_any (p : peripheral) : res peripheral :=
    let* rs := w_registers (info p) in Ok (w_any (fun i => w_peripheral i rs) p).
  Definition w_device (d : device) : res device :=
    let* s := sort_peripherals m (cfg_peripheral_sorting cfg) (d_peripherals d) in
    let* ps := mapM w_peripheral_any s in
    Ok {| d_vendor := tidy_text (d_vendor d); d_vendor_id := tidy_text (d_vendor_id d); d_name := d_name d;
          d_series := tidy_text (d_series d); d_version := d_version d; d_description := d_description d;
          d_license_text := tidy_text (d_license_text d); d_cpu := d_cpu d;
          d_header_system_filename := tidy_text (d_header_system_filename d);
          d_header_definitions_prefix := tidy_text (d_header_definitions_prefix d);
          d_address_unit_bits := d_address_unit_bits d; d_width := d_width d;
          d_default_properties := d_default_properties d; d_peripherals := ps; d_xmlns_xs := d_xmlns_xs d;
          d_no_namespace_schema_location := d_no_namespace_schema_location d;
          d_schema_version := d_schema_version d |}.
End Written.

(** ** Descriptions that a file can express and that are valid at level [l]: texts are
    not empty and have no white space around them, numbers are in the range of their
    type, arrays have a placeholder and one index per instance. *)
Definition text_fits (s : string) : Prop := s <> ""%string /\ trimmed s s.
Definition text_opt := opt_all text_fits.
Definition below (b : N) (o : option N) : Prop := opt_all (fun v => v < b) o.

Section Fits.
  Variable l : level.
  Definition props_fit (p : reg_props) : Prop :=
    below (2 ^ 32) (rp_size p) /\ below (2 ^ 64) (rp_reset_value p) /\ below (2 ^ 64) (rp_reset_mask p) /\
    props_ok l p.
  Definition value_fits (e : enumerated_value) : Prop :=
    text_fits (ev_name e) /\ text_opt (ev_description e) /\ below (2 ^ 64) (ev_value e) /\ value_ok l e.
  Definition values_fit (e : enumerated_values) : Prop :=
    text_opt (evs_name e) /\ Forall value_fits (evs_values e) /\ values_ok l e.
  Definition dai_fits (d : dim_array_index) : Prop :=
    text_opt (dai_header_enum_name d) /\ Forall value_fits (dai_values d).
  (** Index texts without commas and dashes; the list written with commas must be a
      text. *)
  Definition indexes_fit (dim : N) (is : list string) : Prop :=
    is <> [] /\ N.of_nat (List.length is) = dim /\ Forall (free_of ",") is /\ Forall (free_of "-") is /\
    text_fits (glue "," is).
  Definition dim_fits (d : dim_element) : Prop :=
    de_dim d < 2 ^ 32 /\ de_increment d < 2 ^ 32 /\ opt_all (indexes_fit (de_dim d)) (de_index d) /\
    text_opt (de_name d) /\ opt_all dai_fits (de_array_index d).
  Definition any_fits {A} (name : A -> string) (P : A -> Prop) (x : maybe_array A) : Prop :=
    match x with Single a => P a | Array a d => P a /\ dim_fits d /\ has_placeholder (name a) end.
  Definition bits_fit (b : bit_range) : Prop :=
    br_offset b < 2 ^ 32 /\ br_width b < 2 ^ 32 /\
    (br_type b <> BRT_OffsetWidth -> 1 <= br_width b /\ br_offset b + br_width b < 2 ^ 32).
  Definition constraint_fits (w : write_constraint) : Prop :=
    match w with WcRange lo hi => lo < 2 ^ 64 /\ hi < 2 ^ 64 | _ => True end.
  Definition field_fits (f : field_info) : Prop :=
    text_fits (f_name f) /\ text_opt (f_description f) /\ bits_fit (f_bit_range f) /\
    opt_all constraint_fits (f_write_constraint f) /\ Forall values_fit (f_enumerated_values f) /\ field_ok l f.
  Definition register_fits (r : register_info) : Prop :=
    text_fits (r_name r) /\ text_opt (r_display_name r) /\ text_opt (r_description r) /\
    text_opt (r_alternate_group r) /\ text_opt (r_alternate_register r) /\ r_address_offset r < 2 ^ 32 /\
    props_fit (r_properties r) /\ opt_all constraint_fits (r_write_constraint r) /\
    opt_all (fun fs => fs <> [] /\ Forall (any_fits f_name field_fits) fs) (r_fields r) /\ register_ok l r.
  Definition cluster_fits (c : cluster_info) : Prop :=
    text_fits (c_name c) /\ text_opt (c_description c) /\ text_opt (c_alternate_cluster c) /\
    text_opt (c_header_struct_name c) /\ c_address_offset c < 2 ^ 32 /\ props_fit (c_default_properties c) /\
    cluster_ok l c.
  Inductive rc_fits : register_cluster -> Prop :=
    | rf_register r : any_fits r_name register_fits r -> rc_fits (RCRegister r)
    | rf_cluster c : any_fits c_name cluster_fits c -> Forall rc_fits (c_children (info c)) -> rc_fits (RCCluster c).
  Definition block_fits (a : address_block) : Prop := ab_offset a < 2 ^ 32 /\ ab_size a < 2 ^ 32.
  Definition interrupt_fits (i : interrupt) : Prop :=
    text_fits (it_name i) /\ text_opt (it_description i) /\ it_value i < 2 ^ 32.
  Definition peripheral_fits (p : peripheral_info) : Prop :=
    text_fits (p_name p) /\ text_opt (p_display_name p) /\ text_opt (p_version p) /\ text_opt (p_description p) /\
    text_opt (p_alternate_peripheral p) /\ text_opt (p_group_name p) /\ text_opt (p_prepend_to_name p) /\
    text_opt (p_append_to_name p) /\ text_opt (p_header_struct_name p) /\ p_base_address p < 2 ^ 64 /\
    props_fit (p_default_properties p) /\
    opt_all (fun bs => bs <> [] /\ Forall block_fits bs) (p_address_block p) /\
    Forall interrupt_fits (p_interrupt p) /\ opt_all (Forall rc_fits) (p_registers p) /\ peripheral_ok l p.
  Definition cpu_fits (c : cpu) : Prop :=
    text_fits (cpu_name c) /\ text_fits (cpu_revision c) /\ cpu_nvic_priority_bits c < 2 ^ 32 /\
    below (2 ^ 32) (cpu_device_num_interrupts c) /\ below (2 ^ 32) (cpu_sau_num_regions c).
  Definition device_fits (d : device) : Prop :=
    text_opt (d_vendor d) /\ text_opt (d_vendor_id d) /\ text_fits (d_name d) /\ text_opt (d_series d) /\
    text_fits (d_version d) /\
    (text_fits (d_description d) \/ (l <> Strict /\ d_description d = ""%string)) /\
    text_opt (d_license_text d) /\ opt_all cpu_fits (d_cpu d) /\ text_opt (d_header_system_filename d) /\
    text_opt (d_header_definitions_prefix d) /\ d_address_unit_bits d < 2 ^ 32 /\ d_width d < 2 ^ 32 /\
    props_fit (d_default_properties d) /\ Forall (any_fits p_name peripheral_fits) (d_peripherals d) /\
    device_ok l d.
End Fits.

(** ** Configurations *)
(** No conversion of names. *)
Definition no_cases (cfg : config) : Prop :=
  cfg_peripheral_name cfg = None /\ cfg_interrupt_name cfg = None /\ cfg_cluster_name cfg = None /\
  cfg_register_name cfg = None /\ cfg_field_name cfg = None /\ cfg_enumerated_values_name cfg = None /\
  cfg_enumerated_value_name cfg = None /\ cfg_dim_array_index_header_enum_name cfg = None.
(** Everything in the order of the description, bit ranges in their own notation. *)
Definition in_place (cfg : config) : Prop :=
  cfg_peripheral_sorting cfg = Unchanged None /\
  cfg_register_cluster_sorting cfg = RcUnchanged (Unchanged None) /\
  cfg_field_sorting cfg = Unchanged None /\ cfg_field_bit_range cfg = None.
(** A field whose bits can be written in the notation the configuration asks for. *)
Definition spans (cfg : config) (f : field_info) : Prop :=
  forall t, cfg_field_bit_range cfg = Some t -> t <> BRT_OffsetWidth ->
  1 <= br_width (f_bit_range f) /\ br_offset (f_bit_range f) + br_width (f_bit_range f) < 2 ^ 32.
(** In a debug build the writer panics on index lists containing both ends of u32. *)
Definition calm (m : mode) (d : dim_element) : Prop :=
  m = Debug -> forall is, de_index d = Some is -> ~ (In "0"%string is /\ In "4294967295"%string is).

(** ** The same description up to order and bit range notation *)
Definition with_bits (f : field_info) (b : bit_range) : field_info :=
  {| f_name := f_name f; f_description := f_description f; f_bit_range := b;
     f_access := f_access f; f_mwv := f_mwv f; f_write_constraint := f_write_constraint f;
     f_read_action := f_read_action f; f_enumerated_values := f_enumerated_values f;
     f_derived_from := f_derived_from f |}.
Definition with_fields (r : register_info) (fs : option (list field)) : register_info :=
  {| r_name := r_name r; r_display_name := r_display_name r; r_description := r_description r;
     r_alternate_group := r_alternate_group r; r_alternate_register := r_alternate_register r;
     r_address_offset := r_address_offset r; r_properties := r_properties r; r_datatype := r_datatype r;
     r_mwv := r_mwv r; r_write_constraint := r_write_constraint r; r_read_action := r_read_action r;
     r_fields := fs; r_derived_from := r_derived_from r |}.
Definition with_registers (p : peripheral_info) (rs : option (list register_cluster)) : peripheral_info :=
  {| p_name := p_name p; p_display_name := p_display_name p; p_version := p_version p;
     p_description := p_description p; p_alternate_peripheral := p_alternate_peripheral p;
     p_group_name := p_group_name p; p_prepend_to_name := p_prepend_to_name p;
     p_append_to_name := p_append_to_name p; p_header_struct_name := p_header_struct_name p;
     p_base_address := p_base_address p; p_default_properties := p_default_properties p;
     p_address_block := p_address_block p; p_interrupt := p_interrupt p;
     p_registers := rs; p_derived_from := p_derived_from p |}.
Definition with_peripherals (d : device) (ps : list peripheral) : device :=
  {| d_vendor := d_vendor d; d_vendor_id := d_vendor_id d; d_name := d_name d; d_series := d_series d;
     d_version := d_version d; d_description := d_description d; d_license_text := d_license_text d;
     d_cpu := d_cpu d; d_header_system_filename := d_header_system_filename d;
     d_header_definitions_prefix := d_header_definitions_prefix d;
     d_address_unit_bits := d_address_unit_bits d; d_width := d_width d;
     d_default_properties := d_default_properties d; d_peripherals := ps; d_xmlns_xs := d_xmlns_xs d;
     d_no_namespace_schema_location := d_no_namespace_schema_location d;
     d_schema_version := d_schema_version d |}.

Section Like.
  Variable cfg : config.
  Definition field_as (f : field) : field :=
    on_info (fun i => with_bits i
      {| br_offset := br_offset (f_bit_range i); br_width := br_width (f_bit_range i);
         br_type := match cfg_field_bit_range cfg with Some t => t | None => br_type (f_bit_range i) end |}) f.
  (** [out] has the elements of [l], in the order asked for; for descending addresses that
      is only promised below 2^31 (C29). *)
  Definition arranged {A} (order : list A -> list A -> Prop) (descending : Prop) (offset : A -> N) (l out : list A) : Prop :=
    Permutation l out /\ ((descending -> forall a, In a l -> offset a < 2147483648) -> order l out).
  Inductive fields_like : option (list field) -> option (list field) -> Prop :=
    | fl_none : fields_like None None
    | fl_some v s : arranged (field_order (cfg_field_sorting cfg)) (reversed (cfg_field_sorting cfg)) (fun f => br_offset (f_bit_range (info f))) v s ->
        fields_like (Some v) (Some (map field_as s)).
  Inductive rc_like : register_cluster -> register_cluster -> Prop :=
    | rl_register r fs : fields_like (r_fields (info r)) fs ->
        rc_like (RCRegister r) (RCRegister (on_info (fun i => with_fields i fs) r))
    | rl_cluster c l : Forall2 rc_like (c_children (info c)) l ->
        rc_like (RCCluster c) (RCCluster (on_info (fun i => with_children i l) c)).
  Inductive registers_like : option (list register_cluster) -> option (list register_cluster) -> Prop :=
    | gl_none : registers_like None None
    | gl_some v s l : arranged (registers_order (cfg_register_cluster_sorting cfg)) (rc_reversed (cfg_register_cluster_sorting cfg)) entry_offset v s ->
        Forall2 rc_like s l -> registers_like (Some v) (Some l).
  Inductive peripheral_like : peripheral -> peripheral -> Prop :=
    | pl p rs : registers_like (p_registers (info p)) rs ->
        peripheral_like p (on_info (fun i => with_registers i rs) p).
  Definition device_like (d d' : device) : Prop :=
    exists s ps, arranged (peripheral_order (cfg_peripheral_sorting cfg)) (reversed (cfg_peripheral_sorting cfg))
        (fun p => p_base_address (info p)) (d_peripherals d) s /\
      Forall2 peripheral_like s ps /\ d' = with_peripherals d ps.
End Like.

(** ** Documents without blank texts and empty <fields> *)
Definition text_tags : list string :=
  ["name"; "displayName"; "description"; "alternateGroup"; "alternateRegister"; "alternateCluster";
   "headerStructName"; "version"; "alternatePeripheral"; "groupName"; "prependToName"; "appendToName"; "revision";
   "vendor"; "vendorID"; "series"; "licenseText"; "headerSystemFilename"; "headerDefinitionsPrefix";
   "headerEnumName"; "dimName"; "dimIndex"]%string.
Inductive inside : xml -> xml -> Prop :=
  | in_self n : inside n n
  | in_below t a l c e : In c l -> inside c e -> inside (Elem t a l) e.
Definition no_blanks (n : xml) : Prop :=
  forall e, inside n e ->
  (In (tag e) text_tags -> forall s, node_text e s -> ~ spaces s) /\
  (tag e = "fields"%string -> exists c, In c (children e) /\ is_element c = true).
