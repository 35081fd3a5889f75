(** Vocabulary for C67-C69. *)
From Verif Require Import Base Types.

(** [l'] is [l] with its first element that satisfies [P] replaced by [x]. *)
Definition first_replaced {A} (P : A -> Prop) (l : list A) (x : A) (l' : list A) : Prop :=
  exists before y after, l = before ++ y :: after /\ P y /\ (forall z, In z before -> ~ P z) /\ l' = before ++ x :: after.

(** Two clusters that differ in their children only. *)
Definition info_but_children (a b : cluster_info) : Prop :=
  c_name b = c_name a /\ c_description b = c_description a /\ c_alternate_cluster b = c_alternate_cluster a /\
  c_header_struct_name b = c_header_struct_name a /\ c_address_offset b = c_address_offset a /\
  c_default_properties b = c_default_properties a /\ c_derived_from b = c_derived_from a.
Definition same_but_children (c c' : cluster) : Prop :=
  match c, c' with
  | Single a, Single b => info_but_children a b
  | Array a d, Array b e => info_but_children a b /\ d = e
  | _, _ => False
  end.

(** [l'] is [l] with every register, at any depth, replaced by what [g] makes of it; [g]
    sees them in document order and hands on a state. *)
Inductive updated {S} (g : S -> register -> S * register) : S -> list register_cluster -> S -> list register_cluster -> Prop :=
  | up_nil s : updated g s [] s []
  | up_register s r s1 r' l s2 l' : g s r = (s1, r') -> updated g s1 l s2 l' ->
      updated g s (RCRegister r :: l) s2 (RCRegister r' :: l')
  | up_cluster s c s1 c' l s2 l' : same_but_children c c' ->
      updated g s (c_children (info c)) s1 (c_children (info c')) -> updated g s1 l s2 l' ->
      updated g s (RCCluster c :: l) s2 (RCCluster c' :: l').

(** The enumeration a field shows for a usage: only among one or two, only if not derived, read-write if
    it says nothing. *)
Definition used_as (u : usage) (e : enumerated_values) : Prop :=
  evs_derived_from e = None /\ (evs_usage e = Some u \/ (evs_usage e = None /\ u = UReadWrite)).
Definition one_or_two {A} (l : list A) : Prop := List.length l = 1%nat \/ List.length l = 2%nat.
