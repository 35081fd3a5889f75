(** Vocabulary for C106: names that differ among siblings. *)
From Verif Require Import Base Types SpecExpand.

(** Elements that share a name are the same; an array has the names of its instances too. *)
Definition told_apart {A} (name : A -> string) (x y : maybe_array A) : Prop :=
  forall n, is_called name x n -> is_called name y n -> x = y.
(** The fields of a register have names of their own, and so have its sets of enumerated values, whatever their field. *)
Definition fields_distinct (fs : list field) : Prop :=
  (forall f g, In f fs -> In g fs -> told_apart f_name f g) /\
  (forall f g e e' n, In f fs -> In g fs -> In e (f_enumerated_values (info f)) -> In e' (f_enumerated_values (info g)) ->
     evs_name e = Some n -> evs_name e' = Some n -> f = g /\ e = e').
(** In a block the registers have names of their own, and so have the clusters; likewise in every cluster. *)
Inductive block_distinct (kids : list register_cluster) : Prop :=
  | bd_block :
      (forall r r', In (RCRegister r) kids -> In (RCRegister r') kids -> told_apart r_name r r') ->
      (forall c c' : cluster, In (RCCluster c) kids -> In (RCCluster c') kids -> told_apart c_name c c') ->
      (forall r, In (RCRegister r) kids -> fields_distinct (or_empty (r_fields (info r)))) ->
      (forall c : cluster, In (RCCluster c) kids -> block_distinct (c_children (info c))) -> block_distinct kids.
Definition names_distinct (d : device) : Prop :=
  (forall p q, In p (d_peripherals d) -> In q (d_peripherals d) -> told_apart p_name p q) /\
  (forall p, In p (d_peripherals d) -> block_distinct (or_empty (p_registers (info p)))).
