(** Vocabulary for C57: a description with its names in other cases. *)
From Coq Require Import List NArith String.
Import ListNotations.
From Verif Require Import Base Types Config SpecArray SpecExpand SpecRound.

(** [style c s] is the name [s] in the case [c]: untouched without a case; else what the case function gives, with the
    placeholder in lower case again. *)
Definition styles (conv : id_format -> string -> string) (style : option id_format -> string -> string) : Prop :=
  (forall s, style None s = s) /\ forall c s, replaced "%S" "%s" (conv c s) (style (Some c) s).

(** The description with the names of each kind, and what refers to elements of that kind, in the case of that kind. Nothing
    else is touched: every other attribute is copied. *)
Section Named.
  Variable style : option id_format -> string -> string.
  Variable cfg : config.
  Definition named_value (e : enumerated_value) : enumerated_value :=
    {| ev_name := style (cfg_enumerated_value_name cfg) (ev_name e); ev_description := ev_description e;
       ev_value := ev_value e; ev_is_default := ev_is_default e |}.
  Definition named_values (e : enumerated_values) : enumerated_values :=
    let name := style (cfg_enumerated_values_name cfg) in
    {| evs_name := option_map name (evs_name e); evs_usage := evs_usage e;
       evs_derived_from := option_map name (evs_derived_from e); evs_values := map named_value (evs_values e) |}.
  Definition named_index (a : dim_array_index) : dim_array_index :=
    {| dai_header_enum_name := option_map (style (cfg_dim_array_index_header_enum_name cfg)) (dai_header_enum_name a);
       dai_values := map named_value (dai_values a) |}.
  Definition named_dim (d : dim_element) : dim_element :=
    {| de_dim := de_dim d; de_increment := de_increment d; de_index := de_index d; de_name := de_name d;
       de_array_index := option_map named_index (de_array_index d) |}.
  Definition named_any {A} (f : A -> A) (x : maybe_array A) : maybe_array A :=
    match x with Single a => Single (f a) | Array a d => Array (f a) (named_dim d) end.
  Definition named_field (f : field_info) : field_info :=
    let name := style (cfg_field_name cfg) in
    {| f_name := name (f_name f); f_description := f_description f; f_bit_range := f_bit_range f; f_access := f_access f;
       f_mwv := f_mwv f; f_write_constraint := f_write_constraint f; f_read_action := f_read_action f;
       f_enumerated_values := map named_values (f_enumerated_values f); f_derived_from := option_map name (f_derived_from f) |}.
  Definition named_register (r : register_info) : register_info :=
    let name := style (cfg_register_name cfg) in
    {| r_name := name (r_name r); r_display_name := r_display_name r; r_description := r_description r;
       r_alternate_group := r_alternate_group r; r_alternate_register := option_map name (r_alternate_register r);
       r_address_offset := r_address_offset r; r_properties := r_properties r; r_datatype := r_datatype r;
       r_mwv := r_mwv r; r_write_constraint := r_write_constraint r; r_read_action := r_read_action r;
       r_fields := option_map (map (named_any named_field)) (r_fields r); r_derived_from := option_map name (r_derived_from r) |}.
  Definition named_cluster (kids : list register_cluster) (c : cluster_info) : cluster_info :=
    let name := style (cfg_cluster_name cfg) in
    {| c_name := name (c_name c); c_description := c_description c;
       c_alternate_cluster := option_map name (c_alternate_cluster c); c_header_struct_name := c_header_struct_name c;
       c_address_offset := c_address_offset c; c_default_properties := c_default_properties c;
       c_children := kids; c_derived_from := option_map name (c_derived_from c) |}.
  Fixpoint named_child (rc : register_cluster) : register_cluster :=
    match rc with
    | RCRegister r => RCRegister (named_any named_register r)
    | RCCluster c => RCCluster (named_any (named_cluster (map named_child (c_children (info c)))) c)
    end.
  Definition named_interrupt (i : interrupt) : interrupt :=
    {| it_name := style (cfg_interrupt_name cfg) (it_name i); it_description := it_description i; it_value := it_value i |}.
  Definition named_peripheral (p : peripheral_info) : peripheral_info :=
    let name := style (cfg_peripheral_name cfg) in
    {| p_name := name (p_name p); p_display_name := p_display_name p; p_version := p_version p;
       p_description := p_description p; p_alternate_peripheral := option_map name (p_alternate_peripheral p);
       p_group_name := p_group_name p; p_prepend_to_name := option_map name (p_prepend_to_name p);
       p_append_to_name := option_map name (p_append_to_name p); p_header_struct_name := option_map name (p_header_struct_name p);
       p_base_address := p_base_address p; p_default_properties := p_default_properties p;
       p_address_block := p_address_block p; p_interrupt := map named_interrupt (p_interrupt p);
       p_registers := option_map (map named_child) (p_registers p); p_derived_from := option_map name (p_derived_from p) |}.
  Definition named_device (d : device) : device := with_peripherals d (map (named_any named_peripheral) (d_peripherals d)).

  (** ** Siblings that refer to each other by their own names *)
  (** Each element of the chain is a sibling and is what the one before refers to; the last refers to nothing. *)
  Inductive siblings {A} (name : A -> string) (ref : A -> option string) (kid : maybe_array A -> Prop) : string -> list (maybe_array A) -> Prop :=
    | si_last x : kid x -> ref (info x) = None -> siblings name ref kid (name (info x)) [x]
    | si_more x s chain : kid x -> ref (info x) = Some s -> siblings name ref kid s chain ->
        siblings name ref kid (name (info x)) (x :: chain).
  (** The path to a block by the names of what is on the way, before and after; the kinds on the way have their own cases. *)
  Inductive block_at (d : device) : list string -> list string -> list register_cluster -> Prop :=
    | ba_peripheral p : In p (d_peripherals d) ->
        block_at d [p_name (info p)] [style (cfg_peripheral_name cfg) (p_name (info p))] (or_empty (p_registers (info p)))
    | ba_cluster path path' kids c : block_at d path path' kids -> In (RCCluster c) kids ->
        block_at d (path ++ [c_name (info c)]) (path' ++ [style (cfg_cluster_name cfg) (c_name (info c))]) (c_children (info c)).
  (** The case keeps [name] apart from the names in [l], and makes no dots. *)
  Definition keeps_apart (c : option id_format) (name : string) (l : list string) : Prop :=
    forall n, In n l -> style c n <> style c name.
  Definition makes_no_dots (c : option id_format) (l : list string) : Prop := forall n, In n l -> free_of "." (style c n).
End Named.
