(** C100: how much an expansion gives. *)
From Verif Require Import Base Types Expand SpecExpand SpecFlat SpecSize SizeProofs PropExpand.

(** Each peripheral becomes as many as its dimension says, each with as many registers and fields as the products of dimensions say. *)
Theorem C100_groups : forall m fuel d e, underived d -> expand m fuel d = Ok e ->
  exists groups, d_peripherals e = List.concat groups /\
    Forall2 (fun p g => len_N g = copies p /\ Forall (sizes p) g) (d_peripherals d) groups.
Proof. exact expand_sizes. Qed.
Print Assumptions C100_groups.

(** All together: *)
Theorem C100_totals : forall m fuel d e, underived d -> expand m fuel d = Ok e ->
  len_N (d_peripherals e) = total (map copies (d_peripherals d)) /\
  total (map (fun q => len_N (listed q)) (d_peripherals e)) =
    total (map (fun p => copies p * total (map count_registers (listed p))) (d_peripherals d)) /\
  total (map (fun q => total (map (fun rc => len_N (listed_fields rc)) (listed q))) (d_peripherals e)) =
    total (map (fun p => copies p * total (map count_fields (listed p))) (d_peripherals d)).
Proof. exact expand_totals. Qed.
Print Assumptions C100_totals.

(** Every further element written down can double what there is. *)
Theorem C100_doubling : forall n, exists fuel d e, expand Release fuel d = Ok e /\ underived d /\
  written_device d = N.of_nat n + 2 /\ total (map (fun q => len_N (listed q)) (d_peripherals e)) = 2 ^ N.of_nat n.
Proof. intros n. destruct (towering_expands n) as (k & e & H). exists k, (towering n), e. exact H. Qed.
Print Assumptions C100_doubling.

Definition amounts (r : res device) : list (N * N) :=
  match r with
  | Ok e => map (fun q => (len_N (listed q), total (map (fun rc => len_N (listed_fields rc)) (listed q)))) (d_peripherals e)
  | _ => []
  end.
Example C100_example : underived nested /\ amounts (expand Debug 4 nested) = [(6, 12); (6, 12)] /\
  map (fun p => (copies p, total (map count_registers (listed p)), total (map count_fields (listed p)))) (d_peripherals nested) = [(2, 6, 12)] /\
  written_device nested = 6.
Proof. split; [repeat constructor|]. repeat split; vm_compute; reflexivity. Qed.

(** With derivedFrom the dimension of an element may be that of another. *)
Theorem C100_derived_refuted : exists m fuel d e, expand m fuel d = Ok e /\
  total (map (fun q => len_N (listed q)) (d_peripherals e)) <>
    total (map (fun p => copies p * total (map count_registers (listed p))) (d_peripherals d)).
Proof.
  exists Debug, 4%nat, (a_device [Single (a_peripheral "P" 0 (Some
    [RCRegister (Array (a_register "A%s" 0 None None) (times 3 4)); RCRegister (Single (a_register "B%s" 16 None (Some "A%s"%string)))]) None)]).
  match goal with |- exists e, ?X = _ /\ _ => destruct X as [e| |] eqn:E end; [|vm_compute in E; discriminate..].
  exists e. split; [reflexivity|]. vm_compute in E. injection E as <-. vm_compute. discriminate.
Qed.
Print Assumptions C100_derived_refuted.
