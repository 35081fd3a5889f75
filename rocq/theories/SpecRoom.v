(** Vocabulary for C96: the room that registers and clusters take, and descriptions in which
    nothing overlaps. *)
From Coq Require Import List NArith.
Import ListNotations.
From Verif Require Import Base Types SpecDerive SpecExpand.
Open Scope N_scope.

(** A stretch of addresses: where it begins, and how many there are. *)
Definition no_overlap (a b : N * N) : Prop := fst a + snd a <= fst b \/ fst b + snd b <= fst a.
Definition asunder (l : list (N * N)) : Prop := ForallOrdPairs no_overlap l.

Section Room.
  (** How many addresses a register with these properties takes. *)
  Variable bytes : reg_props -> N.
  (** The room for all instances of an element that takes [n]; instances that do not run into
      each other. *)
  Definition spread {A} (x : maybe_array A) (n : N) : N :=
    match x with
    | Single _ => n
    | Array _ d => if de_dim d =? 0 then 0 else (de_dim d - 1) * de_increment d + n
    end.
  Definition spaced {A} (x : maybe_array A) (n : N) : Prop :=
    match x with Single _ => True | Array _ d => de_dim d <= 1 \/ n <= de_increment d end.
  (** Where a child begins, and the room that it takes; where the last of some children ends. *)
  Definition begins (rc : register_cluster) : N :=
    match rc with RCRegister r => r_address_offset (info r) | RCCluster c => c_address_offset (info c) end.
  Fixpoint room (rc : register_cluster) : N :=
    match rc with
    | RCRegister r => spread r (bytes (r_properties (info r)))
    | RCCluster c => spread c (fold_right (fun k n => N.max (begins k + room k) n) 0 (c_children (info c)))
    end.
  Definition reach (kids : list register_cluster) : N := fold_right (fun k n => N.max (begins k + room k) n) 0 kids.
  Definition stretch (rc : register_cluster) : N * N := (begins rc, room rc).
  (** Siblings apart, and the instances of every array apart, on every level. *)
  Inductive orderly : register_cluster -> Prop :=
    | od_register r : spaced r (bytes (r_properties (info r))) -> orderly (RCRegister r)
    | od_cluster (c : cluster) : spaced c (reach (c_children (info c))) -> asunder (map stretch (c_children (info c))) ->
        Forall orderly (c_children (info c)) -> orderly (RCCluster c).
  Definition orderly_block (kids : list register_cluster) : Prop := asunder (map stretch kids) /\ Forall orderly kids.
  (** The same for peripherals. *)
  Definition kids_of (p : peripheral) : list register_cluster := or_empty (p_registers (info p)).
  Definition orderly_device (d : device) : Prop :=
    asunder (map (fun p => (p_base_address (info p), spread p (reach (kids_of p)))) (d_peripherals d)) /\
    Forall (fun p => spaced p (reach (kids_of p)) /\ orderly_block (kids_of p)) (d_peripherals d).
  (** Somewhere, instances of a register array that do run into each other. *)
  Inductive crowded : list register_cluster -> Prop :=
    | cw_register i d kids : In (RCRegister (Array i d)) kids -> 2 <= de_dim d -> de_increment d < bytes (r_properties i) ->
        crowded kids
    | cw_cluster (c : cluster) kids : In (RCCluster c) kids -> (forall e, dims c = Some e -> 1 <= de_dim e) ->
        crowded (c_children (info c)) -> crowded kids.
  (** The addresses of everything in a peripheral, and in a device. *)
  Definition addresses (p : peripheral) : list (N * N) :=
    map (fun rc => (p_base_address (info p) + begins rc, room rc)) (kids_of p).
End Room.
