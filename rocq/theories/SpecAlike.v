(** Vocabulary for C86: two descriptions that differ only in the order of their elements and in the notation of bit
    ranges, and descriptions in which no two siblings share a name. *)
From Coq Require Import List NArith String Permutation.
Import ListNotations.
From Verif Require Import Base Types SpecExpand SpecParse SpecRound.

(** [l'] is [l] in another order, element by element related by [R]. *)
Definition shuffled {A} (R : A -> A -> Prop) (l l' : list A) : Prop := exists s, Permutation l s /\ Forall2 R s l'.
Definition both {A} (R : A -> A -> Prop) (o o' : option A) : Prop :=
  match o, o' with None, None => True | Some a, Some b => R a b | _, _ => False end.

Definition field_alike (f f' : field) : Prop :=
  exists t, f' = mapped (fun i => with_bits i {| br_offset := br_offset (f_bit_range i); br_width := br_width (f_bit_range i); br_type := t |}) f.
Definition register_alike (r r' : register) : Prop :=
  exists fs, both (shuffled field_alike) (r_fields (info r)) fs /\ r' = mapped (fun i => register_with i fs) r.
Inductive rc_alike : register_cluster -> register_cluster -> Prop :=
  | ra_register r r' : register_alike r r' -> rc_alike (RCRegister r) (RCRegister r')
  | ra_cluster (c : cluster) s l : Permutation (c_children (info c)) s -> Forall2 rc_alike s l ->
      rc_alike (RCCluster c) (RCCluster (mapped (fun i => with_children i l) c)).
Definition peripheral_alike (p p' : peripheral) : Prop :=
  exists rs, both (shuffled rc_alike) (p_registers (info p)) rs /\ p' = mapped (fun i => peripheral_with i rs) p.
Definition device_alike (d d' : device) : Prop :=
  same_but_peripherals d d' /\ shuffled peripheral_alike (d_peripherals d) (d_peripherals d').

(** No two siblings of one kind can be called the same, counting the names of array instances; and the sets of values in
    one register have different names. *)
Definition unlike {A} (name : A -> string) (x y : maybe_array A) : Prop := forall n, is_called name x n -> ~ is_called name y n.
Definition rc_unlike (x y : register_cluster) : Prop :=
  match x, y with
  | RCRegister a, RCRegister b => unlike r_name a b
  | RCCluster a, RCCluster b => unlike c_name a b
  | _, _ => True
  end.
Definition values_unlike (f g : field) : Prop :=
  forall n e e', In e (f_enumerated_values (info f)) -> In e' (f_enumerated_values (info g)) ->
  evs_name e = Some n -> evs_name e' <> Some n.
Record apart (d : device) : Prop := {
  ap_peripherals : ForallOrdPairs (unlike p_name) (d_peripherals d);
  ap_children : forall path kids, children_placed d path kids -> ForallOrdPairs rc_unlike kids;
  ap_fields : forall path r, register_placed d path r -> ForallOrdPairs (unlike f_name) (or_empty (r_fields (info r)));
  ap_values : forall path r, register_placed d path r -> ForallOrdPairs values_unlike (or_empty (r_fields (info r)));
  ap_sets : forall path f, field_placed d path f ->
    ForallOrdPairs (fun e e' => forall n, evs_name e = Some n -> evs_name e' <> Some n) (f_enumerated_values (info f)) }.
