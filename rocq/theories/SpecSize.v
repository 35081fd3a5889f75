(** Vocabulary for C100: how much there is of what. *)
From Verif Require Import Base Types SpecExpand.

Definition total (l : list N) : N := fold_right N.add 0 l.
(** How often an element is there *)
Definition copies {A} (x : maybe_array A) : N := match x with Single _ => 1 | Array _ d => de_dim d end.
(** The registers and the fields a child stands for: products of the dimensions on the way *)
Fixpoint count_registers (rc : register_cluster) : N :=
  match rc with
  | RCRegister r => copies r
  | RCCluster c => copies c * total (map count_registers (c_children (info c)))
  end.
Fixpoint count_fields (rc : register_cluster) : N :=
  match rc with
  | RCRegister r => copies r * total (map copies (or_empty (r_fields (info r))))
  | RCCluster c => copies c * total (map count_fields (c_children (info c)))
  end.
(** What is listed in a peripheral *)
Definition listed (p : peripheral) : list register_cluster := or_empty (p_registers (info p)).
Definition listed_fields (rc : register_cluster) : list field :=
  match rc with RCRegister r => or_empty (r_fields (info r)) | RCCluster _ => [] end.
(** How much is written down: peripherals, clusters, registers and fields *)
Fixpoint written (rc : register_cluster) : N :=
  match rc with
  | RCRegister r => 1 + len_N (or_empty (r_fields (info r)))
  | RCCluster c => 1 + total (map written (c_children (info c)))
  end.
Definition written_device (d : device) : N := total (map (fun p => 1 + total (map written (listed p))) (d_peripherals d)).
(** The peripheral [q] lists as many registers and fields as [p] stands for. *)
Definition sizes (p q : peripheral) : Prop :=
  len_N (listed q) = total (map count_registers (listed p)) /\
  total (map (fun rc => len_N (listed_fields rc)) (listed q)) = total (map count_fields (listed p)).
