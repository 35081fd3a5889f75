(** C99: addresses, bit positions and array steps decide nothing but addresses and bit positions. *)
From Verif Require Import Base Types Derive Arrays Expand Validate SpecExpand SpecPlaces PlacesProofs PropExpand.

(** Descriptions that differ in places alone expand to descriptions that differ in places alone, or fail alike, unless one of them runs out of numbers. *)
Theorem C99_expand : forall m fuel d e, same_but_places d e -> agree same_but_places (expand m fuel d) (expand m fuel e).
Proof. exact places_expand. Qed.
Print Assumptions C99_expand.

(** Where numbers wrap around there is no exception, *)
Theorem C99_release : forall fuel d e, same_but_places d e ->
  match expand Release fuel d, expand Release fuel e with
  | Ok d', Ok e' => same_but_places d' e'
  | Err x, Err y => x = y
  | Panic x, Panic y => x = y
  | _, _ => False
  end.
Proof. exact places_release. Qed.
Print Assumptions C99_release.

(** the one is as valid as the other, *)
Theorem C99_valid : forall l d e, same_but_places d e -> device_validate_all l d = device_validate_all l e.
Proof. exact places_valid. Qed.
Print Assumptions C99_valid.

(** and filled in with the same properties. *)
Theorem C99_filled : forall d e, same_but_places d e -> same_but_places (expand_properties d) (expand_properties e).
Proof. exact places_filled. Qed.
Print Assumptions C99_filled.

(** A peripheral with an array of clusters, at a base address, with a step, and with bits *)
Definition placed (base off step bit : N) : device := a_device
  [Single (PeripheralInfo "P" None None None None None None None None base rp_default None []
     (Some [RCCluster (Array (ClusterInfo "C%s" None None None off rp_default
        [RCRegister (Single (RegisterInfo "R" None None None None off rp_default None None None None
           (Some [Array (FieldInfo "F%s" None (BitRange bit 1 BRT_OffsetWidth) None None None None [] None) (DimElement 2 step None None None)]) None))]
        None) (DimElement 2 step None None None))]) None);
   Single (PeripheralInfo "Q" None None None None None None None None (base + 4096) rp_default None [] None (Some "P"))].
Definition places (r : res device) : list (string * N * list (string * N * list (string * N))) :=
  match r with
  | Ok e => map (fun p => (p_name (info p), p_base_address (info p),
      flat_map (fun rc => match rc with
        | RCRegister r => [(r_name (info r), r_address_offset (info r),
            map (fun f => (f_name (info f), br_offset (f_bit_range (info f)))) (or_empty (r_fields (info r))))]
        | _ => [] end) (or_empty (p_registers (info p))))) (d_peripherals e)
  | _ => []
  end.
Example C99_example : same_but_places (placed 4096 4 8 3) (placed 16384 0 16 5) /\
  places (expand Debug 5 (placed 4096 4 8 3)) =
    [("P", 4096, [("C0_R", 8, [("F0", 3); ("F1", 11)]); ("C1_R", 16, [("F0", 3); ("F1", 11)])]);
     ("Q", 8192, [("C0_R", 8, [("F0", 3); ("F1", 11)]); ("C1_R", 16, [("F0", 3); ("F1", 11)])])]%string /\
  places (expand Debug 5 (placed 16384 0 16 5)) =
    [("P", 16384, [("C0_R", 0, [("F0", 5); ("F1", 21)]); ("C1_R", 16, [("F0", 5); ("F1", 21)])]);
     ("Q", 20480, [("C0_R", 0, [("F0", 5); ("F1", 21)]); ("C1_R", 16, [("F0", 5); ("F1", 21)])])]%string.
Proof. split; [reflexivity|]. split; vm_compute; reflexivity. Qed.

(** The exception is real: a checked build may stop at the one and not at the other. *)
Theorem C99_checked_refuted : exists fuel d e d',
  same_but_places d e /\ expand Debug fuel d = Ok d' /\ expand Debug fuel e = Panic Overflow.
Proof.
  exists 5%nat, (placed 4096 4 8 3), (placed 4096 4294967295 8 3).
  destruct (expand Debug 5 (placed 4096 4 8 3)) as [x| |] eqn:E; [|vm_compute in E; discriminate..]. exists x.
  split; [reflexivity|]. split; [reflexivity|]. vm_compute. reflexivity.
Qed.
Print Assumptions C99_checked_refuted.
