(** C88: the bits of the registers of a description and of its expansion. *)
From Coq Require Import Lia.
From Verif Require Import Base BaseFacts Types Arrays Expand SpecArray SpecExpand SpecLeaves SpecKept KeptProofs PropArrays PropExpand.

(** ** C88: expansion keeps the bits of every register *)

(** Register by register: one field per instance of a field, where it was and with what it was for. *)
Theorem C88_fields : forall m fuel d e, plain_device d -> all_fields (settled m) d -> expand m fuel d = Ok e ->
  Forall2 (Forall2 one_each) (flat_map registers_of_peripheral (d_peripherals d)) (map flat_registers (d_peripherals e)).
Proof. exact device_kept_fields. Qed.
Print Assumptions C88_fields.
(** The same bits belong to fields of the same width, access, write effect, constraint and read action. *)
Theorem C88_bits : forall m fuel d e, plain_device d -> all_fields (settled m) d -> expand m fuel d = Ok e ->
  Forall2 (Forall2 same_bits) (flat_map registers_of_peripheral (d_peripherals d)) (map flat_registers (d_peripherals e)).
Proof. exact device_kept_bits. Qed.
Print Assumptions C88_bits.
(** The masks computed before and after are the same. *)
Theorem C88_masks : forall m m' fuel d e, plain_device d -> all_fields (settled m) d -> all_fields in_word d -> expand m fuel d = Ok e ->
  Forall2 (Forall2 (fun x y => exists v, register_bitmask m' x = Ok v /\ register_bitmask m' y = Ok v))
    (flat_map registers_of_peripheral (d_peripherals d)) (map flat_registers (d_peripherals e)).
Proof. exact device_kept_masks. Qed.
Print Assumptions C88_masks.
(** The instances of an array of fields are apart exactly if the increment is not less than the width. *)
Theorem C88_disjoint : forall f d l, field_expand Debug f d = Ok l -> 2 <= de_dim d ->
  ((forall i j x y k, i <> j -> nth_error l i = Some x -> nth_error l j = Some y ->
      field_covers (Single x) k -> ~ field_covers (Single y) k) <-> br_width (f_bit_range f) <= de_increment d).
Proof. exact instances_disjoint. Qed.
Print Assumptions C88_disjoint.

Definition bit_device (fs : list field) : device := a_device [Array (a_peripheral "P%s" 0 (Some
  [RCCluster (Array (a_cluster "C%s" 0 [RCRegister (Single (a_register "R" 0 (Some fs) None))] None) (times 2 16));
   RCRegister (Array (a_register "Q%s" 64 (Some [Single (sample_field "A" 3 2)]) None) (times 2 4))]) None) (times 2 4096)].
Definition some_fields : list field := [Single (sample_field "F" 0 2); Array (sample_field "G%s" 8 3) (times 3 4)].
Definition masks (d : device) : list (list (res N)) := map (fun p => map (register_bitmask Debug) (flat_registers p)) (d_peripherals d).
Ltac words := solve [discriminate | intros ? ->; reflexivity | intros ? (k & Hk & ->); cbn in *; lia | intros ? ?; cbn in *; lia].
Example C88_example : plain_device (bit_device some_fields) /\ all_fields (settled Debug) (bit_device some_fields) /\
  all_fields in_word (bit_device some_fields) /\
  match expand Debug 6 (bit_device some_fields) with
  | Ok e => masks e = repeat [Ok 0x77703; Ok 0x77703; Ok 0x18; Ok 0x18] 2
  | _ => False
  end.
Proof.
  split; [|split; [|split]].
  - repeat constructor.
  - repeat constructor.
  - repeat constructor; cbn; words.
  - vm_compute. reflexivity.
Qed.
Example C88_disjoint_case : exists l, field_expand Debug (sample_field "G%s" 8 3) (times 3 4) = Ok l /\ map (fun i => br_offset (f_bit_range i)) l = [8; 12; 16].
Proof. eexists. split; reflexivity. Qed.

(** An instance that begins above bit 63: the mask of the array leaves it out; the mask of the expanded register panics,
    or, where arithmetic is not checked, has it at the low end of the word. *)
Definition high : list field := [Array (sample_field "G%s" 40 3) (times 2 30)].
Theorem C88_high_refuted : exists d e e', plain_device d /\ all_fields (settled Release) d /\ all_fields maskable d /\
  expand Debug 6 d = Ok e /\ expand Release 6 d = Ok e' /\ e = e' /\
  (exists x y, In [x] (flat_map registers_of_peripheral (d_peripherals d)) /\ In [y] (map flat_registers (d_peripherals e)) /\
     (forall m, register_bitmask m x = Ok 0x70000000000) /\ register_bitmask Debug y = Panic Overflow /\
     register_bitmask Release y = Ok 0x700000001C0).
Proof.
  exists (a_device [Single (a_peripheral "P" 0 (Some [RCRegister (Single (a_register "R" 0 (Some high) None))]) None)]).
  eexists _, _. split; [repeat constructor|]. split; [|split].
  - constructor; [|constructor]. constructor; [|constructor]. constructor. constructor; [|constructor].
    split; [reflexivity|right]. intros s (k & Hk & ->). cbn in *. lia.
  - repeat constructor; cbn; words.
  - split; [vm_compute; reflexivity|]. split; [vm_compute; reflexivity|]. split; [reflexivity|].
    eexists _, _. split; [left; reflexivity|]. split; [left; reflexivity|]. split; [intros []; reflexivity|]. split; reflexivity.
Qed.
Print Assumptions C88_high_refuted.
(** A field with a place for an index in its name that is derived from an array becomes an array. *)
Theorem C88_derived_refuted : exists d e, plain_device d /\ all_fields in_word d /\ expand Debug 6 d = Ok e /\
  exists x y, In [x] (flat_map registers_of_peripheral (d_peripherals d)) /\ In [y] (map flat_registers (d_peripherals e)) /\
    register_bitmask Debug x = Ok 0x107 /\ register_bitmask Debug y = Ok 0x707.
Proof.
  exists (a_device [Single (a_peripheral "P" 0 (Some [RCRegister (Single (a_register "R" 0
    (Some [Array (a_field "F%s" 0 1 [] None) (times 3 1); Single (a_field "G%s" 8 1 [] (Some "F%s"%string))]) None))]) None)]).
  eexists. split; [repeat constructor|]. split; [|split; [vm_compute; reflexivity|]].
  - repeat constructor; cbn; words.
  - eexists _, _. split; [left; reflexivity|]. split; [left; reflexivity|]. split; reflexivity.
Qed.
Print Assumptions C88_derived_refuted.
