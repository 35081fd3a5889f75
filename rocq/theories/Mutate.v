(** Access through mutable references: get_mut_*, registers_mut, clusters_mut,
    all_registers_mut. A reference is its place: the position in a list, or the positions
    on the way down a tree of children. Assigning through it changes the tree at that
    place. *)
From Verif Require Import Base Types Arrays.

(** ** Places in a list: slice::iter_mut().find *)
Fixpoint places_from {A} (i : nat) (f : A -> bool) (l : list A) : list nat :=
  match l with [] => [] | a :: l' => if f a then i :: places_from (S i) f l' else places_from (S i) f l' end.
(** The places of the elements that satisfy [f], in order *)
Definition places {A} (f : A -> bool) (l : list A) : list nat := places_from 0 f l.
Fixpoint set_nth {A} (i : nat) (x : A) (l : list A) : list A :=
  match l, i with
  | [], _ => []
  | _ :: l', O => x :: l'
  | a :: l', S i' => a :: set_nth i' x l'
  end.
(** [*l.iter_mut().find(f)? = x] *)
Definition assign {A} (f : A -> bool) (l : list A) (x : A) : option (list A) :=
  match places f l with i :: _ => Some (set_nth i x l) | [] => None end.

(** svd-rs/src/device.rs:404-406 *)
Definition assign_peripheral (d : device) (name : string) (x : peripheral) : option (list peripheral) :=
  assign (fun p => seqb (p_name (info p)) name) (d_peripherals d) x.
(** svd-rs/src/peripheral.rs:518-520 *)
Definition assign_interrupt (p : peripheral_info) (name : string) (x : interrupt) : option (list interrupt) :=
  assign (fun i => seqb (it_name i) name) (p_interrupt p) x.
(** svd-rs/src/register.rs:407-422 *)
Definition assign_field (r : register_info) (name : string) (x : field) : option (list field) :=
  match r_fields r with
  | Some fs => assign (fun f => seqb (f_name (info f)) name) fs x
  | None => None
  end.
(** svd-rs/src/enumeratedvalues.rs:183-185 *)
Definition assign_value (e : enumerated_values) (name : string) (x : enumerated_value) : option (list enumerated_value) :=
  assign (fun v => seqb (ev_name v) name) (evs_values e) x.
(** svd-rs/src/enumeratedvalues.rs:169-175 *)
Definition evs_usage_of (e : enumerated_values) : option usage :=
  if is_some (evs_derived_from e) then None else Some (opt_default UReadWrite (evs_usage e)).
(** svd-rs/src/field.rs:396-404 *)
Definition assign_enumerated_values (f : field_info) (u : usage) (x : enumerated_values) : option (list enumerated_values) :=
  match f_enumerated_values f with
  | [_] | [_; _] =>
      assign (fun e => match evs_usage_of e with Some v => usage_eqb v u | None => false end) (f_enumerated_values f) x
  | _ => None
  end.
(** RegisterIterMut, ClusterIterMut: svd-rs/src/registercluster.rs:78-92 and 110-124; the
    references are the places of the children of that kind. *)
Definition is_register (rc : register_cluster) : bool := match rc with RCRegister _ => true | _ => false end.
Definition registers_mut (cs : list register_cluster) : list nat := places is_register cs.
Definition clusters_mut (cs : list register_cluster) : list nat := places (fun rc => negb (is_register rc)) cs.
(** cluster.rs:337-339, peripheral.rs:498-500 *)
Definition assign_register (cs : list register_cluster) (name : string) (x : register) : option (list register_cluster) :=
  match find_first (fun i => match nth_error cs i with Some (RCRegister r) => seqb (r_name (info r)) name | _ => false end)
                   (registers_mut cs) with
  | Some i => Some (set_nth i (RCRegister x) cs)
  | None => None
  end.
(** cluster.rs:347-349, peripheral.rs:508-510 *)
Definition assign_cluster (cs : list register_cluster) (name : string) (x : cluster) : option (list register_cluster) :=
  match find_first (fun i => match nth_error cs i with Some (RCCluster c) => seqb (c_name (info c)) name | _ => false end)
                   (clusters_mut cs) with
  | Some i => Some (set_nth i (RCCluster x) cs)
  | None => None
  end.
(** [for r in registers_mut() { *r = g(r) }], likewise clusters_mut *)
Definition each_place {A} (g : A -> A) (l : list A) (is : list nat) : list A :=
  fold_left (fun l i => match nth_error l i with Some x => set_nth i (g x) l | None => l end) is l.
Definition each_register (g : register -> register) (cs : list register_cluster) : list register_cluster :=
  each_place (fun rc => match rc with RCRegister r => RCRegister (g r) | _ => rc end) cs (registers_mut cs).
Definition each_cluster (g : cluster -> cluster) (cs : list register_cluster) : list register_cluster :=
  each_place (fun rc => match rc with RCCluster c => RCCluster (g c) | _ => rc end) cs (clusters_mut cs).

(** ** Places in a tree *)
Definition place := list nat.
Definition set_children (c : cluster) (l : list register_cluster) : cluster :=
  let i := info c in
  let i' := {| c_name := c_name i; c_description := c_description i; c_alternate_cluster := c_alternate_cluster i;
               c_header_struct_name := c_header_struct_name i; c_address_offset := c_address_offset i;
               c_default_properties := c_default_properties i; c_children := l; c_derived_from := c_derived_from i |} in
  match c with Single _ => Single i' | Array _ d => Array i' d end.
(** What is at a place, and the tree with something else there *)
Fixpoint look (cs : list register_cluster) (p : place) : option register_cluster :=
  match p with
  | [] => None
  | [i] => nth_error cs i
  | i :: p' => match nth_error cs i with Some (RCCluster c) => look (c_children (info c)) p' | _ => None end
  end.
Fixpoint store (cs : list register_cluster) (p : place) (x : register_cluster) : list register_cluster :=
  match p with
  | [] => cs
  | [i] => set_nth i x cs
  | i :: p' =>
      match nth_error cs i with
      | Some (RCCluster c) => set_nth i (RCCluster (set_children c (store (c_children (info c)) p' x))) cs
      | _ => cs
      end
  end.
(** The places of the children of the cluster at [p], in order *)
Definition below (p : place) (l : list register_cluster) : list place := map (fun i => p ++ [i]) (seq 0 (List.length l)).
(** AllRegistersIterMut::next: svd-rs/src/registercluster.rs:154-171, as [all_next] of Arrays.v:
    the Vec with its last element first, [fuel] for the loop; None is too little fuel. *)
Fixpoint all_next_mut (fuel : nat) (cs : list register_cluster) (rem : list place) : option (option place * list place) :=
  match fuel with
  | O => None
  | S fuel' =>
      match rem with
      | [] => Some (None, [])
      | p :: rem' =>
          match look cs p with
          | Some (RCRegister _) => Some (Some p, rem')
          | Some (RCCluster c) => all_next_mut fuel' cs (fold_left push (rev (below p (c_children (info c)))) rem')
          | None => None
          end
      end
  end.
(** [for r in all_registers_mut() { *r = g(state, r) }]; [n] bounds the number of calls *)
Fixpoint all_assign {S} (n fuel : nat) (g : S -> register -> S * register) (s : S) (cs : list register_cluster)
  (rem : list place) : option (S * list register_cluster) :=
  match n with
  | O => None
  | Datatypes.S n' =>
      match all_next_mut fuel cs rem with
      | None => None
      | Some (None, _) => Some (s, cs)
      | Some (Some p, rem') =>
          match look cs p with
          | Some (RCRegister r) => let '(s', r') := g s r in all_assign n' fuel g s' (store cs p (RCRegister r')) rem'
          | _ => None
          end
      end
  end.
(** all_registers_mut: cluster.rs:297-301, peripheral.rs:483-490 *)
Definition all_registers_mut (cs : list register_cluster) : list place := fold_left push (rev (below [] cs)) [].
