(** validate and validate_all of every svd-rs type. *)
From Verif Require Import Base Names Types.

(** [if b { r? }] *)
Definition when (b : bool) (r : res unit) : res unit := if b then r else Ok tt.

(** core::ops::Range::contains *)
Definition in_range (start end_ v : N) : bool := (start <=? v) && (v <? end_).

(** svd-rs/src/registerproperties.rs:130-157. u64::MAX.count_ones() is 64 and
    [64 - x.leading_zeros()] is the bit length, [N.size] (for x < 2^64). *)
Definition check_reset_value (size value mask : option N) (l : level) : res unit :=
  let* _ := match size, value with
            | Some s, Some v => check (N.size v <=? s) (EValueTooLarge v s)
            | _, _ => Ok tt
            end in
  when (is_strict l)
    (let* _ := match size, mask with
               | Some s, Some k => check (N.size k <=? s) (EMaskTooLarge k s)
               | _, _ => Ok tt
               end in
     match value, mask with
     | Some v, Some k => check (N.land v k =? v) (EMaskConflict v k)
     | _, _ => Ok tt
     end).
(** svd-rs/src/registerproperties.rs:92-97 *)
Definition rp_validate (l : level) (p : reg_props) : res unit :=
  when (negb (is_disabled l))
    (check_reset_value (rp_size p) (rp_reset_value p) (rp_reset_mask p) l).

(** svd-rs/src/writeconstraint.rs:43-53 (on WriteConstraintRange) *)
Definition wc_check_range (min max start end_ : N) : res unit :=
  if max <? min then Err (EWcReversedRange min max)
  else iterM (fun v => check (in_range start end_ v) (EWcOutOfRange v start end_)) [min; max].

(** svd-rs/src/enumeratedvalue.rs:106-108 *)
Definition ev_default (e : enumerated_value) : bool :=
  match ev_is_default e with Some true => true | _ => false end.
(** svd-rs/src/enumeratedvalue.rs:134-147 *)
Definition ev_validate (l : level) (e : enumerated_value) : res unit :=
  when (negb (is_disabled l))
    (let* _ := when (is_strict l) (check_name (ev_name e) "name") in
     match is_some (ev_value e), ev_default e with
     | false, false => Err EEvAbsentValue
     | true, true => if is_strict l then Err (EEvValueAndDefault (ev_value e)) else Ok tt
     | _, _ => Ok tt
     end).
(** svd-rs/src/enumeratedvalue.rs:148-153 *)
Definition ev_check_range (start end_ : N) (e : enumerated_value) : res unit :=
  match ev_value e with
  | Some x => check (in_range start end_ x) (EEvOutOfRange x start end_)
  | None => Ok tt
  end.

(** svd-rs/src/enumeratedvalues.rs:134-154 *)
Definition evs_validate (l : level) (e : enumerated_values) : res unit :=
  when (negb (is_disabled l))
    (let* _ := when (is_strict l) (iterM_opt (fun n => check_name n "name") (evs_name e)) in
     match evs_derived_from e with
     | Some dn => when (is_strict l) (check_derived_name dn "derivedFrom")
     | None => check (negb (is_nil (evs_values e))) EEvsEmpty
     end).
(** svd-rs/src/enumeratedvalues.rs:156-161 *)
Definition evs_validate_all (l : level) (e : enumerated_values) : res unit :=
  let* _ := iterM (ev_validate l) (evs_values e) in evs_validate l e.
(** svd-rs/src/enumeratedvalues.rs:162-167 *)
Definition evs_check_range (start end_ : N) (e : enumerated_values) : res unit :=
  iterM (ev_check_range start end_) (evs_values e).
(** EnumeratedValues::usage(): svd-rs/src/enumeratedvalues.rs:169-175 *)
Definition evs_get_usage (e : enumerated_values) : option usage :=
  if is_some (evs_derived_from e) then None else Some (opt_default UReadWrite (evs_usage e)).

(** svd-rs/src/dimelement.rs:219-222 *)
Definition de_validate (l : level) (d : dim_element) : res unit := Ok tt.

(** matches!(u, None | Some(Usage::Read)) and likewise for Write *)
Definition reads_or_unknown (u : option usage) : bool :=
  match u with None | Some URead => true | _ => false end.
Definition writes_or_unknown (u : option usage) : bool :=
  match u with None | Some UWrite => true | _ => false end.

(** svd-rs/src/field.rs:305-350 *)
Definition field_validate (l : level) (f : field_info) : res unit :=
  if is_disabled l then Ok tt else
  let w := br_width (f_bit_range f) in
  let* _ := when (is_strict l)
              (let* _ := check_dimable_name (f_name f) "name" in
               iterM_opt (fun n => check_derived_name n "derivedFrom") (f_derived_from f)) in
  let* _ := check (negb (w =? 0)) EZeroWidth in
  let* _ := when (w <? 64) (iterM (evs_check_range 0 (2 ^ w)) (f_enumerated_values f)) in
  let* _ := when (is_strict l)
              (match f_enumerated_values f with
               | [] | [_] => Ok tt
               | [e1; e2] =>
                   if reads_or_unknown (evs_get_usage e1) && writes_or_unknown (evs_get_usage e2)
                   then Ok tt
                   else if reads_or_unknown (evs_get_usage e2) && writes_or_unknown (evs_get_usage e1)
                   then Ok tt
                   else Err EIncompatibleUsages
               | _ => Err EIncompatibleUsages
               end) in
  match f_write_constraint f with
  | Some (WcRange min max) => when (w <? 64) (wc_check_range min max 0 (2 ^ w))
  | _ => Ok tt
  end.
(** svd-rs/src/field.rs:352-357 *)
Definition field_info_validate_all (l : level) (f : field_info) : res unit :=
  let* _ := iterM (evs_validate_all l) (f_enumerated_values f) in field_validate l f.
(** The pattern of Field/Register/Cluster/Peripheral::validate_all: validate the
    dim element of an array, then the info (svd-rs/src/field.rs:409-414,
    register.rs:430-438, cluster.rs, peripheral.rs). *)
Definition ma_validate_all {A} (f : level -> A -> res unit) (l : level) (x : maybe_array A) : res unit :=
  let* _ := match x with Array _ d => de_validate l d | Single _ => Ok tt end in
  f l (info x).
Definition field_validate_all := ma_validate_all field_info_validate_all.

(** svd-rs/src/register.rs:366-388 *)
Definition register_validate (l : level) (r : register_info) : res unit :=
  when (negb (is_disabled l))
    (let* _ := when (is_strict l)
                 (let* _ := check_dimable_name (r_name r) "name" in
                  let* _ := iterM_opt (fun n => check_name n "alternateGroup") (r_alternate_group r) in
                  iterM_opt (fun n => check_dimable_name n "alternateRegister") (r_alternate_register r)) in
     match r_derived_from r with
     | Some n => when (is_strict l) (check_derived_name n "derivedFrom")
     | None => match r_fields r with
               | Some fs => check (negb (is_nil fs && is_strict l)) EEmptyFields
               | None => Ok tt
               end
     end).
(** svd-rs/src/register.rs:390-396 *)
Definition register_info_validate_all (l : level) (r : register_info) : res unit :=
  let* _ := rp_validate l (r_properties r) in
  let* _ := iterM (field_validate_all l) (r_fields_iter r) in
  register_validate l r.
Definition register_validate_all := ma_validate_all register_info_validate_all.

(** svd-rs/src/cluster.rs:250-264 *)
Definition cluster_validate (l : level) (c : cluster_info) : res unit :=
  when (negb (is_disabled l))
    (let* _ := when (is_strict l) (check_dimable_name (c_name c) "name") in
     match c_derived_from c with
     | Some n => when (is_strict l) (check_derived_name n "derivedFrom")
     | None => check (negb (is_nil (c_children c) && is_strict l)) EEmptyCluster
     end).
(** svd-rs/src/cluster.rs:266-275 with Cluster::validate_all. The two loops over
    registers() and clusters() are written as two passes over the children, each
    skipping the other kind, so that the recursion is structural; facts relating
    them to [rc_registers] and [rc_clusters] are in ValidateProofs.v. *)
Fixpoint rc_validate_all (l : level) (rc : register_cluster) : res unit :=
  match rc with
  | RCRegister r => register_validate_all l r
  | RCCluster c =>
      let* _ := match c with Array _ d => de_validate l d | Single _ => Ok tt end in
      let* _ := rp_validate l (c_default_properties (info c)) in
      let* _ := iterM (fun x => match x with RCRegister _ => rc_validate_all l x | _ => Ok tt end)
                      (c_children (info c)) in
      let* _ := iterM (fun x => match x with RCCluster _ => rc_validate_all l x | _ => Ok tt end)
                      (c_children (info c)) in
      cluster_validate l (info c)
  end.
Definition cluster_validate_all (l : level) (c : cluster) : res unit := rc_validate_all l (RCCluster c).

(** svd-rs/src/addressblock.rs:151-158, interrupt.rs:95-102, cpu.rs:323-326 *)
Definition ab_validate (l : level) (a : address_block) : res unit := Ok tt.
Definition it_validate (l : level) (i : interrupt) : res unit := Ok tt.
Definition cpu_validate (l : level) (c : cpu) : res unit := Ok tt.

(** svd-rs/src/peripheral.rs:382-399 *)
Definition peripheral_validate (l : level) (p : peripheral_info) : res unit :=
  when (negb (is_disabled l))
    (let* _ := when (is_strict l) (check_dimable_name (p_name p) "name") in
     match p_derived_from p with
     | Some n => when (is_strict l) (check_dimable_name n "derivedFrom")
     | None => match p_registers p with
               | Some rs => check (negb (is_nil rs && is_strict l)) EEmptyRegisters
               | None => Ok tt
               end
     end).
(** svd-rs/src/peripheral.rs:401-418 *)
Definition peripheral_info_validate_all (l : level) (p : peripheral_info) : res unit :=
  let* _ := iterM_opt (iterM (ab_validate l)) (p_address_block p) in
  let* _ := iterM (it_validate l) (p_interrupt p) in
  let* _ := rp_validate l (p_default_properties p) in
  let* _ := iterM (register_validate_all l) (rc_registers (p_children p)) in
  let* _ := iterM (cluster_validate_all l) (rc_clusters (p_children p)) in
  peripheral_validate l p.
Definition peripheral_validate_all := ma_validate_all peripheral_info_validate_all.

(** svd-rs/src/device.rs:377-385 *)
Definition device_validate (l : level) (d : device) : res unit :=
  when (negb (is_disabled l)) (check (negb (is_nil (d_peripherals d))) EEmptyDevice).
(** svd-rs/src/device.rs:387-396 *)
Definition device_validate_all (l : level) (d : device) : res unit :=
  let* _ := iterM_opt (cpu_validate l) (d_cpu d) in
  let* _ := rp_validate l (d_default_properties d) in
  let* _ := iterM (peripheral_validate_all l) (d_peripherals d) in
  device_validate l d.
