(** C67-C69: access through mutable references, enumerations by usage. *)
From Verif Require Import Base BaseFacts Types Arrays SpecWalk WalkProofs Mutate SpecMutate MutateProofs PropWalk.

(** C67: assigning through get_mut_* replaces the first element of that name, in place, and
    leaves every other one alone. *)
Theorem C67_replaced :
  (forall d n x l, assign_peripheral d n x = Some l <-> first_replaced (fun p : peripheral => p_name (info p) = n) (d_peripherals d) x l) /\
  (forall p n x l, assign_interrupt p n x = Some l <-> first_replaced (fun i => it_name i = n) (p_interrupt p) x l) /\
  (forall r n x l, assign_field r n x = Some l <->
     exists fs, r_fields r = Some fs /\ first_replaced (fun f : field => f_name (info f) = n) fs x l) /\
  (forall e n x l, assign_value e n x = Some l <-> first_replaced (fun v => ev_name v = n) (evs_values e) x l) /\
  (forall cs n x l, assign_register cs n x = Some l <->
     first_replaced (fun rc => exists r, rc = RCRegister r /\ r_name (info r) = n) cs (RCRegister x) l) /\
  (forall cs n x l, assign_cluster cs n x = Some l <->
     first_replaced (fun rc => exists c, rc = RCCluster c /\ c_name (info c) = n) cs (RCCluster x) l).
Proof.
  conjs.
  - intros d n x l. exact (assign_named (fun p : peripheral => p_name (info p)) n _ x l).
  - intros p n x l. exact (assign_named it_name n _ x l).
  - exact assign_field_iff.
  - intros e n x l. exact (assign_named ev_name n _ x l).
  - exact assign_register_iff.
  - exact assign_cluster_iff.
Qed.
Print Assumptions C67_replaced.
(** There is something to assign to exactly when the getter finds something. *)
Theorem C67_none :
  (forall d n x, assign_peripheral d n x = None <-> get_peripheral d n = None) /\
  (forall p n x, assign_interrupt p n x = None <-> get_interrupt p n = None) /\
  (forall r n x, assign_field r n x = None <-> get_field r n = None) /\
  (forall e n x, assign_value e n x = None <-> get_value e n = None) /\
  (forall cs n x, assign_register cs n x = None <-> get_register cs n = None) /\
  (forall cs n x, assign_cluster cs n x = None <-> get_cluster cs n = None).
Proof.
  conjs.
  - intros d n x. exact (named_none_iff (fun p : peripheral => p_name (info p)) n _ x).
  - intros p n x. exact (named_none_iff it_name n _ x).
  - exact assign_field_none.
  - intros e n x. exact (named_none_iff ev_name n _ x).
  - exact assign_register_none.
  - exact assign_cluster_none.
Qed.
Print Assumptions C67_none.
(** An element written under its own name is the one read back; every other name reads as
    before, and registers and clusters of one name do not disturb each other. *)
Theorem C67_read_back :
  (forall d d' n x, assign_peripheral d n x = Some (d_peripherals d') -> p_name (info x) = n ->
     get_peripheral d' n = Some x /\ forall n', n' <> n -> get_peripheral d' n' = get_peripheral d n') /\
  (forall p p' n x, assign_interrupt p n x = Some (p_interrupt p') -> it_name x = n ->
     get_interrupt p' n = Some x /\ forall n', n' <> n -> get_interrupt p' n' = get_interrupt p n') /\
  (forall r r' l n x, assign_field r n x = Some l -> r_fields r' = Some l -> f_name (info x) = n ->
     get_field r' n = Some x /\ forall n', n' <> n -> get_field r' n' = get_field r n') /\
  (forall e e' n x, assign_value e n x = Some (evs_values e') -> ev_name x = n ->
     get_value e' n = Some x /\ forall n', n' <> n -> get_value e' n' = get_value e n') /\
  (forall cs n x l, assign_register cs n x = Some l -> r_name (info x) = n ->
     get_register l n = Some x /\ (forall n', n' <> n -> get_register l n' = get_register cs n') /\
     (forall n', get_cluster l n' = get_cluster cs n')) /\
  (forall cs n x l, assign_cluster cs n x = Some l -> c_name (info x) = n ->
     get_cluster l n = Some x /\ (forall n', n' <> n -> get_cluster l n' = get_cluster cs n') /\
     (forall n', get_register l n' = get_register cs n')).
Proof.
  conjs.
  - intros d d' n x. exact (read_written (fun p : peripheral => p_name (info p)) n _ x _).
  - intros p p' n x. exact (read_written it_name n _ x _).
  - exact field_read_written.
  - intros e e' n x. exact (read_written ev_name n _ x _).
  - exact register_read_written.
  - exact cluster_read_written.
Qed.
Print Assumptions C67_read_back.
(** registers_mut() and clusters_mut(): each direct child of that kind once, in place; the
    others stay. *)
Theorem C67_each : forall cs,
  (forall g, each_register g cs = map (fun rc => match rc with RCRegister r => RCRegister (g r) | RCCluster c => RCCluster c end) cs) /\
  (forall g, each_cluster g cs = map (fun rc => match rc with RCRegister r => RCRegister r | RCCluster c => RCCluster (g c) end) cs).
Proof. intros cs. exact (conj (fun g => each_register_ok g cs) (fun g => each_cluster_ok g cs)). Qed.
Print Assumptions C67_each.
Example C67_case : assign_register (RCCluster (Single (ClusterInfo "D" None None None 0 rp_default [] None)) :: tree) "D" (reg "E") =
  Some (RCCluster (Single (ClusterInfo "D" None None None 0 rp_default [] None)) :: firstn 2 tree ++ [RCRegister (reg "E")]) /\
  assign_register tree "B" (reg "E") = None /\
  assign_cluster tree "X" (Single (ClusterInfo "Z" None None None 0 rp_default [] None)) =
  Some [RCRegister (reg "A"); clu "Z" []; RCRegister (reg "D")].
Proof. repeat split. Qed.

(** C68: a loop over all_registers_mut() that replaces every register it is given by what a
    function of a running state makes of it ends, and leaves the tree with exactly the
    registers replaced, each once, in document order at any depth; clusters keep all but
    their children. *)
Theorem C68_all_replaced : forall T (g : T -> register -> T * register) s cs,
  exists s' out, updated g s cs s' out /\
    exists n, forall k f, (n <= k)%nat -> (n <= f)%nat -> all_assign k f g s cs (all_registers_mut cs) = Some (s', out).
Proof. exact @all_registers_mut_ok. Qed.
Print Assumptions C68_all_replaced.
Theorem C68_only_that : forall T (g : T -> register -> T * register) s cs s' out,
  updated g s cs s' out <-> exists k f, all_assign k f g s cs (all_registers_mut cs) = Some (s', out).
Proof. exact @all_registers_mut_iff. Qed.
Print Assumptions C68_only_that.
(** The registers handed out are those of all_registers(), in that order, whatever the loop
    does to them. *)
Theorem C68_same_walk : forall h k f cs seen out,
  all_assign k f (fun (seen : list register) r => (seen ++ [r], h seen r)) [] cs (all_registers_mut cs) = Some (seen, out) ->
  visits cs seen.
Proof. exact walk_seen. Qed.
Print Assumptions C68_same_walk.
(** Afterwards all_registers() gives what was written. *)
Theorem C68_written : forall (h : register -> register) k f cs out was,
  all_assign k f (fun (s : unit) r => (s, h r)) tt cs (all_registers_mut cs) = Some (tt, out) ->
  visits cs was -> visits out (map h was).
Proof. exact walk_written. Qed.
Print Assumptions C68_written.
Definition renamed (n : nat) (r : register) : nat * register :=
  (S n, Single match reg (String.append (r_name (info r)) (str1 (ascii_of_nat (48 + n)))) with Single i => i | Array i _ => i end).
Example C68_case : all_assign 9 9 renamed 0%nat tree (all_registers_mut tree) =
  Some (4%nat, [RCRegister (reg "A0"); clu "X" [clu "Y" [RCRegister (reg "B1")]; RCRegister (reg "C2")]; RCRegister (reg "D3")]).
Proof. reflexivity. Qed.

(** C69: enumerations by usage: only of a field with one or two of them, the first that is
    not derived and has that usage, read-write where none is given. *)
Theorem C69_by_usage : forall f u e, get_enumerated_values f u = Some e <->
  one_or_two (f_enumerated_values f) /\ exists before after, f_enumerated_values f = before ++ e :: after /\ used_as u e /\
    forall y, In y before -> ~ used_as u y.
Proof. exact by_usage. Qed.
Print Assumptions C69_by_usage.
Theorem C69_assign : forall f u x l, assign_enumerated_values f u x = Some l <->
  one_or_two (f_enumerated_values f) /\ first_replaced (used_as u) (f_enumerated_values f) x l.
Proof. exact assign_by_usage. Qed.
Print Assumptions C69_assign.
(** At most one usage gives a given enumeration. *)
Theorem C69_one_usage : forall f u v e, get_enumerated_values f u = Some e -> get_enumerated_values f v = Some e -> u = v.
Proof. exact one_usage. Qed.
Print Assumptions C69_one_usage.
(** default_value(): the first value marked as the default. *)
Theorem C69_default : forall e v, default_value e = Some v <->
  exists before after, evs_values e = before ++ v :: after /\ ev_is_default v = Some true /\
    forall y, In y before -> ev_is_default y <> Some true.
Proof. exact default_value_iff. Qed.
Print Assumptions C69_default.
Definition enum (n : string) (u : option usage) (d : option string) : enumerated_values :=
  EnumeratedValues (Some n) u d [EnumeratedValue "off" None (Some 0) None; EnumeratedValue "other" None None (Some true)].
Definition two (a b : enumerated_values) : field_info :=
  FieldInfo "F" None (BitRange 0 1 BRT_OffsetWidth) None None None None [a; b] None.
Example C69_case :
  get_enumerated_values (two (enum "D" (Some URead) (Some "X")) (enum "R" (Some URead) None)) URead = Some (enum "R" (Some URead) None) /\
  get_enumerated_values (two (enum "D" (Some URead) (Some "X")) (enum "R" None None)) UReadWrite = Some (enum "R" None None) /\
  get_enumerated_values (two (enum "D" (Some UWrite) None) (enum "R" None None)) URead = None /\
  assign_enumerated_values (two (enum "W" (Some UWrite) None) (enum "R" (Some URead) None)) URead (enum "N" None None) =
    Some [enum "W" (Some UWrite) None; enum "N" None None] /\
  option_map ev_name (default_value (enum "N" None None)) = Some "other".
Proof. repeat split. Qed.
