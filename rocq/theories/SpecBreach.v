(** Vocabulary for C87: the rules of validation with the error each gives, in the order in which they are checked. *)
From Coq Require Import List NArith String.
Import ListNotations.
From Verif Require Import Base Types SpecArray SpecValidate.
Open Scope N_scope.

(** [r] is the outcome of going through [xs]: success if all are right, else the error of the first that is not. *)
Definition first_bad {A} (right : A -> Prop) (wrong : A -> err -> Prop) (xs : list A) (r : res unit) : Prop :=
  (r = Ok tt /\ Forall right xs) \/
  exists before x after e, xs = before ++ x :: after /\ Forall right before /\ wrong x e /\ r = Err e.

(** A rule: when it is broken, and the error. *)
Definition rule : Type := Prop * err.
Definition kept (r : rule) : Prop := ~ fst r.
Definition broken (r : rule) (e : err) : Prop := fst r /\ e = snd r.

Definition plain_rule (l : level) (tag n : string) : rule := (l = Strict /\ ~ plain_name n, EName n tag).
Definition array_rule (l : level) (tag n : string) : rule := (l = Strict /\ ~ arrayable_name n, EName n tag).
Definition of_option {A B} (o : option A) (f : A -> B) : list B := match o with Some a => [f a] | None => [] end.

(** A reference is checked piece by piece; [pieces] are those of the reference of the element. *)
Definition reference_of (x : element) : option string :=
  match x with
  | EValues e => evs_derived_from e
  | EField f => f_derived_from f
  | ERegister r => r_derived_from r
  | ECluster c => c_derived_from c
  | _ => None
  end.
Definition pieces_of (x : element) (pieces : list string) : Prop :=
  match reference_of x with Some s => cut "." s pieces | None => pieces = [] end.
Definition or_rule {A} (l : level) (reference : option A) (pieces : list string) (otherwise : list rule) : list rule :=
  match reference with Some _ => map (array_rule l "derivedFrom") pieces | None => otherwise end.

Definition props_rules (l : level) (p : reg_props) : list rule :=
  match rp_size p, rp_reset_value p with Some s, Some v => [(checked l /\ 2 ^ s <= v, EValueTooLarge v s)] | _, _ => [] end ++
  match rp_size p, rp_reset_mask p with Some s, Some k => [(l = Strict /\ 2 ^ s <= k, EMaskTooLarge k s)] | _, _ => [] end ++
  match rp_reset_value p, rp_reset_mask p with
  | Some v, Some k => [(l = Strict /\ exists i, N.testbit v i = true /\ N.testbit k i = false, EMaskConflict v k)]
  | _, _ => []
  end.
Definition value_rules (l : level) (e : enumerated_value) : list rule :=
  [plain_rule l "name" (ev_name e);
   (checked l /\ ev_value e = None /\ ev_is_default e <> Some true, EEvAbsentValue);
   (l = Strict /\ ev_value e <> None /\ ev_is_default e = Some true, EEvValueAndDefault (ev_value e))].
Definition values_rules (l : level) (pieces : list string) (e : enumerated_values) : list rule :=
  of_option (evs_name e) (plain_rule l "name") ++
  or_rule l (evs_derived_from e) pieces [(checked l /\ evs_values e = [], EEvsEmpty)].
Definition field_rules (l : level) (pieces : list string) (f : field_info) : list rule :=
  let w := br_width (f_bit_range f) in
  let narrow := checked l /\ w < 64 in
  array_rule l "name" (f_name f) :: or_rule l (f_derived_from f) pieces [] ++
  (checked l /\ w = 0, EZeroWidth) ::
  flat_map (fun es => flat_map (fun e => of_option (ev_value e) (fun v => (narrow /\ 2 ^ w <= v, EEvOutOfRange v 0 (2 ^ w))))
    (evs_values es)) (f_enumerated_values f) ++
  (l = Strict /\ ~ compatible_usages (f_enumerated_values f), EIncompatibleUsages) ::
  match f_write_constraint f with
  | Some (WcRange lo hi) =>
      [(narrow /\ hi < lo, EWcReversedRange lo hi); (narrow /\ 2 ^ w <= lo, EWcOutOfRange lo 0 (2 ^ w));
       (narrow /\ 2 ^ w <= hi, EWcOutOfRange hi 0 (2 ^ w))]
  | _ => []
  end.
Definition register_rules (l : level) (pieces : list string) (r : register_info) : list rule :=
  array_rule l "name" (r_name r) :: of_option (r_alternate_group r) (plain_rule l "alternateGroup") ++
  of_option (r_alternate_register r) (array_rule l "alternateRegister") ++
  or_rule l (r_derived_from r) pieces [(l = Strict /\ r_fields r = Some [], EEmptyFields)].
Definition cluster_rules (l : level) (pieces : list string) (c : cluster_info) : list rule :=
  array_rule l "name" (c_name c) :: or_rule l (c_derived_from c) pieces [(l = Strict /\ c_children c = [], EEmptyCluster)].
(** The reference of a peripheral is one name. *)
Definition peripheral_rules (l : level) (p : peripheral_info) : list rule :=
  array_rule l "name" (p_name p) ::
  match p_derived_from p with
  | Some s => [array_rule l "derivedFrom" s]
  | None => [(l = Strict /\ p_registers p = Some [], EEmptyRegisters)]
  end.
Definition device_rules (l : level) (d : device) : list rule := [(checked l /\ d_peripherals d = [], EEmptyDevice)].
Definition rules (l : level) (pieces : list string) (x : element) : list rule :=
  match x with
  | EProps p => props_rules l p
  | EValue e => value_rules l e
  | EValues e => values_rules l pieces e
  | EField f => field_rules l pieces f
  | ERegister r => register_rules l pieces r
  | ECluster c => cluster_rules l pieces c
  | EPeripheral p => peripheral_rules l p
  | EDevice d => device_rules l d
  end.
(** [r] is what the rules say about one element, and [e] the error of one that breaks them. *)
Definition judged (l : level) (x : element) (r : res unit) : Prop :=
  exists pieces, pieces_of x pieces /\ first_bad kept broken (rules l pieces x) r.
Definition blamed (l : level) (x : element) (e : err) : Prop := judged l x (Err e).

(** ** Whole trees: the elements in the order in which they are checked. Parts come before the whole, properties first,
    and the registers of a block before its clusters. *)
Definition values_walk (es : enumerated_values) : list element := map EValue (evs_values es) ++ [EValues es].
Definition field_walk (f : field_info) : list element := flat_map values_walk (f_enumerated_values f) ++ [EField f].
Definition register_walk (r : register_info) : list element :=
  EProps (r_properties r) :: flat_map (fun f => field_walk (info f)) (match r_fields r with Some fs => fs | None => [] end) ++ [ERegister r].
Fixpoint rc_walk (rc : register_cluster) : list element :=
  match rc with
  | RCRegister r => register_walk (info r)
  | RCCluster c =>
      EProps (c_default_properties (info c)) ::
      flat_map (fun x => match x with RCRegister _ => rc_walk x | RCCluster _ => [] end) (c_children (info c)) ++
      flat_map (fun x => match x with RCCluster _ => rc_walk x | RCRegister _ => [] end) (c_children (info c)) ++
      [ECluster (info c)]
  end.
Definition peripheral_walk (p : peripheral_info) : list element :=
  let kids := match p_registers p with Some rcs => rcs | None => [] end in
  EProps (p_default_properties p) ::
  flat_map (fun x => match x with RCRegister _ => rc_walk x | RCCluster _ => [] end) kids ++
  flat_map (fun x => match x with RCCluster _ => rc_walk x | RCRegister _ => [] end) kids ++
  [EPeripheral p].
Definition device_walk (d : device) : list element :=
  EProps (d_default_properties d) :: flat_map (fun p => peripheral_walk (info p)) (d_peripherals d) ++ [EDevice d].
