(** The small views of the types: the processor family, single instances and arrays, and
    the options of the parser. The traits Name and Description (svd-rs/src/lib.rs:233-278)
    are the projections of Types.v; on arrays (array.rs:43-60) they go through [info]. *)
From Verif Require Import Base Types Parse.

(** svd-rs/src/cpu.rs:326-330 *)
Definition is_cortex_m (c : cpu) : bool := starts_with "CM" (cpu_name c).

(** single, array, maybe_array: svd-rs/src/cluster.rs:199-213, field.rs:244-258,
    peripheral.rs:309-323, register.rs:299-313 *)
Definition single {A} (i : A) : maybe_array A := Single i.
Definition array {A} (i : A) (d : dim_element) : maybe_array A := Array i d.
Definition maybe {A} (i : A) (d : option dim_element) : maybe_array A :=
  match d with Some d => array i d | None => single i end.
(** svd-rs/src/array.rs:35-42 *)
Definition is_array {A} (x : maybe_array A) : bool := match x with Array _ _ => true | _ => false end.

(** svd-parser/src/lib.rs:56-59 *)
Definition set_level (l : level) (c : pconfig) : pconfig :=
  PConfig l (pc_expand c) (pc_expand_properties c) (pc_ignore_enums c).
(** svd-parser/src/lib.rs:61-66 *)
Definition set_expand (b : bool) (c : pconfig) : pconfig :=
  PConfig (pc_level c) b (pc_expand_properties c) (pc_ignore_enums c).
(** svd-parser/src/lib.rs:68-74 *)
Definition set_expand_properties (b : bool) (c : pconfig) : pconfig :=
  PConfig (pc_level c) (pc_expand c) b (pc_ignore_enums c).
(** svd-parser/src/lib.rs:76-80 *)
Definition set_ignore_enums (b : bool) (c : pconfig) : pconfig :=
  PConfig (pc_level c) (pc_expand c) (pc_expand_properties c) b.
