(** Vocabulary for C88: the bits of the registers of a description and of its expansion. *)
From Verif Require Import Base Types SpecArray SpecExpand SpecLeaves.

(** The registers an element stands for, one by one and in order; each is the register it is an instance of. *)
Fixpoint registers_of (rc : register_cluster) : list register_info :=
  match rc with
  | RCRegister r => repeat (info r) (copies r)
  | RCCluster c => List.concat (repeat (flat_map registers_of (c_children (info c))) (copies c))
  end.
(** ... for each of the peripherals one stands for *)
Definition registers_of_peripheral (p : peripheral) : list (list register_info) :=
  repeat (flat_map registers_of (or_empty (p_registers (info p)))) (copies p).
(** The registers of an expanded peripheral *)
Definition flat_registers (p : peripheral) : list register_info :=
  flat_map (fun rc => match rc with RCRegister r => [info r] | RCCluster _ => [] end) (or_empty (p_registers (info p))).

(** The bits at which the instances of a field begin, as numbers of any size *)
Definition starts (f : field) (s : N) : Prop :=
  match f with
  | Single i => s = br_offset (f_bit_range i)
  | Array i d => exists k, k < de_dim d /\ s = br_offset (f_bit_range i) + k * de_increment d
  end.
(** What software may do with the bits of a field *)
Definition role (i : field_info) : N * option access * option mwv * option write_constraint * option read_action :=
  (br_width (f_bit_range i), f_access i, f_mwv i, f_write_constraint i, f_read_action i).
(** Bit [k] of the register belongs to a field with role [a]. *)
Definition covered (r : register_info) (a : N * option access * option mwv * option write_constraint * option read_action) (k : N) : Prop :=
  exists f, In f (or_empty (r_fields r)) /\ role (info f) = a /\ field_covers f k.
Definition same_bits (x y : register_info) : Prop := forall a k, covered x a k <-> covered y a k.
(** [y] has exactly one field per instance of a field of [x] ... *)
Definition one_each (x y : register_info) : Prop :=
  exists groups, or_empty (r_fields y) = List.concat groups /\
    Forall2 (fun f out => List.length out = copies f /\
               (forall g, In g out -> exists i, g = Single i /\ starts f (br_offset (f_bit_range i)) /\ role i = role (info f)) /\
               (forall s, starts f s -> exists i, In (Single i) out /\ br_offset (f_bit_range i) = s /\ role i = role (info f)))
            (or_empty (r_fields x)) groups.

(** All fields of a description satisfy [P]. *)
Inductive fields_below (P : field -> Prop) : register_cluster -> Prop :=
  | fb_register r : Forall P (or_empty (r_fields (info r))) -> fields_below P (RCRegister r)
  | fb_cluster (c : cluster) : Forall (fields_below P) (c_children (info c)) -> fields_below P (RCCluster c).
Definition all_fields (P : field -> Prop) (d : device) : Prop :=
  Forall (fun p => Forall (fields_below P) (or_empty (p_registers (info p)))) (d_peripherals d).
(** The field refers to none, and its instances begin at bits a u32 can number (which an expansion in checked
    arithmetic has already found out). *)
Definition settled (m : mode) (f : field) : Prop :=
  f_derived_from (info f) = None /\ (m = Debug \/ forall s, starts f s -> s < 2 ^ 32).
(** The field can be put in a 64 bit mask, and so can its instances one by one. *)
Definition in_word (f : field) : Prop := maskable f /\ forall s, starts f s -> s < 64.
