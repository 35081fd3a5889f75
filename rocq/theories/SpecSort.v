(** What sorting the encoder's output means, independently of how it is done. *)
From Coq Require Import List NArith String Ascii Permutation Sorting.Sorted.
Import ListNotations.
From Verif Require Import Types Config.
Open Scope N_scope.

(** Byte-wise order of texts. *)
Inductive text_le : string -> string -> Prop :=
  | tl_empty s : text_le "" s
  | tl_less c d s t : (N_of_ascii c < N_of_ascii d)%N -> text_le (String c s) (String d t)
  | tl_equal c s t : text_le s t -> text_le (String c s) (String c t).

(** [a] and [b] are the elements of [l] with and without the property, in order. *)
Inductive split_by {A} (P : A -> Prop) : list A -> list A -> list A -> Prop :=
  | sb_nil : split_by P [] [] []
  | sb_yes x l a b : P x -> split_by P l a b -> split_by P (x :: l) (x :: a) b
  | sb_no x l a b : ~ P x -> split_by P l a b -> split_by P (x :: l) a (x :: b).

(** [out] is [l] reordered so that [le] holds between every earlier and later element,
    while elements equivalent in the order keep their order: whatever the key, the
    elements of that key form the same list in both. *)
Definition stable {A K} (le : A -> A -> Prop) (key : A -> K) (l out : list A) : Prop :=
  Permutation l out /\ StronglySorted le out /\
  forall k a b, split_by (fun x => key x = k) l a b -> exists b', split_by (fun x => key x = k) out a b'.

Definition in_order {A} (offset : A -> N) (name : A -> string) (s : option sorting) (l out : list A) : Prop :=
  match s with
  | None => out = l
  | Some ByOffset => stable (fun a b => offset a <= offset b) offset l out
  | Some ByOffsetReversed => stable (fun a b => offset b <= offset a) offset l out
  | Some ByName => stable (fun a b => text_le (name a) (name b)) name l out
  end.

(** Derived elements after the others when asked. *)
Definition derivable_order {A} (offset : A -> N) (name : A -> string) (derived : A -> Prop)
    (s : derivable_sorting) (l out : list A) : Prop :=
  match s with
  | Unchanged s => in_order offset name s l out
  | DeriveLast s => exists d c d' c', split_by derived l d c /\
      in_order offset name s c c' /\ in_order offset name s d d' /\ out = (c' ++ d')%list
  end.

Definition peripheral_order : derivable_sorting -> list peripheral -> list peripheral -> Prop :=
  derivable_order (fun p => p_base_address (info p)) (fun p => p_name (info p))
    (fun p => p_derived_from (info p) <> None).
Definition field_order : derivable_sorting -> list field -> list field -> Prop :=
  derivable_order (fun f => br_offset (f_bit_range (info f))) (fun f => f_name (info f))
    (fun f => f_derived_from (info f) <> None \/
              exists e, In e (f_enumerated_values (info f)) /\ evs_derived_from e <> None).

Definition entry_offset (rc : register_cluster) : N :=
  match rc with
  | RCRegister r => r_address_offset (info r)
  | RCCluster c => c_address_offset (info c)
  end.
Definition entry_name (rc : register_cluster) : string :=
  match rc with
  | RCRegister r => r_name (info r)
  | RCCluster c => c_name (info c)
  end.
Definition entry_derived (rc : register_cluster) : Prop :=
  match rc with
  | RCRegister r => r_derived_from (info r) <> None
  | RCCluster c => c_derived_from (info c) <> None
  end.
Definition entry_order : derivable_sorting -> list register_cluster -> list register_cluster -> Prop :=
  derivable_order entry_offset entry_name entry_derived.
Definition registers_order (s : rc_sorting) (l out : list register_cluster) : Prop :=
  match s with
  | RcUnchanged s => entry_order s l out
  | RegistersFirst s => exists r c r' c', split_by (fun x => exists y, x = RCRegister y) l r c /\
      entry_order s r r' /\ entry_order s c c' /\ out = (r' ++ c')%list
  | ClustersFirst s => exists r c r' c', split_by (fun x => exists y, x = RCRegister y) l r c /\
      entry_order s r r' /\ entry_order s c c' /\ out = (c' ++ r')%list
  end.

(** Whether an order asks for descending addresses. *)
Definition reversed (s : derivable_sorting) : Prop :=
  s = Unchanged (Some ByOffsetReversed) \/ s = DeriveLast (Some ByOffsetReversed).
Definition rc_reversed (s : rc_sorting) : Prop :=
  exists d, reversed d /\ (s = RcUnchanged d \/ s = RegistersFirst d \/ s = ClustersFirst d).
