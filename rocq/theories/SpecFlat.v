(** Vocabulary for C34: the layout of a peripheral without derivation. *)
From Verif Require Import Base Types SpecArray SpecExpand.

(** No derivedFrom anywhere. *)
Definition underived_field (f : field) : Prop :=
  f_derived_from (info f) = None /\ Forall (fun e => evs_derived_from e = None) (f_enumerated_values (info f)).
Inductive underived_child : register_cluster -> Prop :=
  | ud_register r : r_derived_from (info r) = None -> Forall underived_field (or_empty (r_fields (info r))) ->
      underived_child (RCRegister r)
  | ud_cluster (c : cluster) : c_derived_from (info c) = None -> Forall underived_child (c_children (info c)) ->
      underived_child (RCCluster c).
Definition underived_peripheral (p : peripheral) : Prop :=
  p_derived_from (info p) = None /\ Forall underived_child (or_empty (p_registers (info p))).
Definition underived (d : device) : Prop := Forall underived_peripheral (d_peripherals d).

(** Names and places (not reduced to machine integers) of the instances of an element. *)
Definition spots {A} (name : A -> string) (place : A -> N) (x : maybe_array A) (l : list (string * N)) : Prop :=
  match x with
  | Single i => l = [(name i, place i)]
  | Array i d => len_N l = de_dim d /\ forall k, k < de_dim d -> exists idx n,
      index_text d k idx /\ name_of_instance d (name i) idx n /\ nth_N l k = Some (n, place i + k * de_increment d)
  end.
Definition field_spots (fs : list field) (l : list (string * N)) : Prop :=
  exists ls, Forall2 (spots f_name (fun i => br_offset (f_bit_range i))) fs ls /\ l = List.concat ls.
(** The registers below some children, in order: for each combination of instances, the
    names on the way, the sum of the offsets, and the register. *)
Record spot := Spot { s_names : list string; s_offset : N; s_register : register }.
Inductive layout : list register_cluster -> list spot -> Prop :=
  | la_nil : layout [] []
  | la_register r rest ss l : spots r_name r_address_offset r ss -> layout rest l ->
      layout (RCRegister r :: rest) (map (fun s => Spot [fst s] (snd s) r) ss ++ l)
  | la_cluster (c : cluster) rest ss sub l : spots c_name c_address_offset c ss ->
      layout (c_children (info c)) sub -> layout rest l ->
      layout (RCCluster c :: rest)
        (flat_map (fun s => map (fun t => Spot (fst s :: s_names t) (snd s + s_offset t) (s_register t)) sub) ss ++ l).

(** [x] is [a] as a machine integer; in debug mode it is [a]. *)
Definition agrees (m : mode) (bound a x : N) : Prop := x mod bound = a mod bound /\ (m = Debug -> x = a).
(** The register found at a spot after expansion. *)
Definition at_spot (m : mode) (s : spot) (y : register_info) : Prop :=
  let x := info (s_register s) in
  r_name y = glue "_" (s_names s) /\ agrees m (2 ^ 32) (s_offset s) (r_address_offset y) /\
  r_alternate_group y = r_alternate_group x /\ r_alternate_register y = r_alternate_register x /\
  r_properties y = r_properties x /\ r_datatype y = r_datatype x /\ r_mwv y = r_mwv x /\
  r_write_constraint y = r_write_constraint x /\ r_read_action y = r_read_action x /\
  match r_fields x with
  | None => r_fields y = None
  | Some fs => exists l out, field_spots fs l /\ r_fields y = Some (map Single out) /\
      Forall2 (fun s i => f_name i = fst s /\ agrees m (2 ^ 32) (snd s) (br_offset (f_bit_range i))) l out
  end.
(** All of a peripheral without derivation. *)
Definition flattened (m : mode) (p : peripheral) (out : list peripheral_info) : Prop :=
  exists ss, spots p_name p_base_address p ss /\
  Forall2 (fun s y =>
    p_name y = fst s /\ agrees m (2 ^ 64) (snd s) (p_base_address y) /\
    match p_registers (info p) with
    | None => p_registers y = None
    | Some kids => exists l regs, layout kids l /\ Forall2 (at_spot m) l regs /\
        p_registers y = Some (map (fun i => RCRegister (Single i)) regs)
    end) ss out.
