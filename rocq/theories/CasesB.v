(** Concrete inputs for the theorems about expansion, builder calls, building modes, validation order and name
    formats that have no example beside them; see CasesA.v. *)
From Coq Require Import String NArith List Lia.
From Verif Require Import BaseFacts Types Names Validate Derive Arrays Builders Setters Config Sort Xml Encode Parse Expand Serde Show Top.
From Verif Require Import SpecArray SpecValidate SpecBuild SpecCalls SpecExpand SpecBreach SpecRound SpecNamed CallProofs BuilderProofs.
From Verif Require Import PropParse PropArrays PropValidate PropBuild PropExpand PropCalls PropBreach PropCause PropNamed CasesA.
Import ListNotations.
Local Open Scope N_scope.
Local Open Scope string_scope.

(** Expansion *)

Definition namesake : device :=
  a_device [Single (a_peripheral "P" 0 None None); Single (a_peripheral "Q" 4 None None); Single (a_peripheral "P" 8 None None)].

Example C31_last_case :
  bind (index_create namesake) (fun ix => Ok (ix_peripheral ix (bp_new "P"))) = Ok (Some (Single (a_peripheral "P" 8 None None))).
Proof. vm_compute; reflexivity. Qed.

Example C32_flat_case : flat_device timers_expanded /\ ~ flat_device timers.
Proof. split; [exact (C32_flat Debug 6 timers timers_expanded (proj1 timers_ok))|exact (proj2 (proj2 C35_example))]. Qed.

Definition short_index : device :=
  a_device [Single (a_peripheral "P" 0 (Some [RCRegister (Array (a_register "R%s" 0 None None) (dim_with 3 4 (Some ["A"; "B"])))]) None)].
Definition too_far : device :=
  a_device [Single (a_peripheral "P" 0 (Some [RCRegister (Array (a_register "R%s" 0xFFFFFFFC None None) (dim_with 2 4 None))]) None)].

Example C33_panics_case :
  expand Debug 6 short_index = Panic OutOfBounds /\ expand Release 6 short_index = Panic OutOfBounds /\
  expand Debug 6 too_far = Panic Overflow /\ accepted (expand Release 6 too_far) = true.
Proof. repeat split; vm_compute; reflexivity. Qed.

Example C40_twice_case : expand_properties timers <> timers /\ expand_properties (expand_properties timers) = expand_properties timers.
Proof. split; [exact (proj2 C39_example)|exact (C40_twice timers)]. Qed.

Example C54_no_panic_case :
  device_validate_all Strict short_index = Ok tt /\ device_validate_all Strict too_far = Ok tt.
Proof. split; vm_compute; reflexivity. Qed.

(** Calls of setters *)

Example C83_value_case :
  ev_build Strict (chain value_set value_new [with_value_value (Some 1); with_value_name "A"; with_value_value (Some 2)]) =
  Ok (EnumeratedValue "A" None (Some 2) None) /\
  ev_build Weak (chain value_set value_new [with_value_name "A"]) = Err EEvAbsentValue.
Proof. split; vm_compute; reflexivity. Qed.

Example C83_field_case :
  field_build Strict (chain field_set field_new [with_field_bit_offset 3; with_field_name "F"; with_field_bit_width 2]) =
  Ok (FieldInfo "F" None (BitRange 3 2 BRT_OffsetWidth) None None None None [] None) /\
  field_build Strict (chain field_set field_new [with_field_bit_width 2; with_field_name "F"; with_field_bit_offset 3]) =
  Err (EUninitialized "bit_range").
Proof. split; vm_compute; reflexivity. Qed.

Example C83_cluster_case :
  cluster_build Weak (chain cluster_set cluster_new
    [with_cluster_address_offset 4; with_cluster_children []; with_cluster_name "C"; with_cluster_default_register_properties (RegProps (Some 8) None None None None)]) =
  Ok (ClusterInfo "C" None None None 4 (RegProps (Some 8) None None None None) [] None).
Proof. vm_compute; reflexivity. Qed.

Example C83_peripheral_case :
  peripheral_build Strict (chain peripheral_set peripheral_new
    [with_peripheral_name "P"; with_peripheral_base_address 0x100000000; with_peripheral_base_address 4]) =
  Ok (a_peripheral "P" 4 None None).
Proof. vm_compute; reflexivity. Qed.

(** Which error validation reports *)

Example C87_device_all_case :
  first_blamed Strict (device_walk (lone (deep_register "R-"))) (EName "R-" "name") /\
  ~ first_blamed Weak (device_walk (lone (deep_register "R-"))) (EName "R-" "name").
Proof.
  split; [apply C87_device_all; vm_compute; reflexivity|]. intros H. apply C87_device_all in H. vm_compute in H. discriminate H.
Qed.

Example C87_peripheral_all_case :
  first_blamed Strict (peripheral_walk (a_peripheral "P 1" 0 (Some [wrap "A" [RCRegister (Single (deep_register "R-"))]]) None)) (EName "R-" "name") /\
  first_blamed Strict (peripheral_walk (a_peripheral "P 1" 0 None None)) (EName "P 1" "name").
Proof.
  split.
  - apply (C87_peripheral_all Strict (Single (a_peripheral "P 1" 0 (Some [wrap "A" [RCRegister (Single (deep_register "R-"))]]) None))). vm_compute; reflexivity.
  - apply (C87_peripheral_all Strict (Single (a_peripheral "P 1" 0 None None))). vm_compute; reflexivity.
Qed.

Example C87_values_all_case :
  first_blamed Weak (values_walk (EnumeratedValues None None None [sample_value "A" (Some 1) None; sample_value "B" None None])) EEvAbsentValue.
Proof. apply C87_values_all. vm_compute; reflexivity. Qed.

(** Name formats and references *)

Definition shouting : config := set_field_name (Some Constant) (set_cluster_name (Some Constant) (set_peripheral_name (Some Constant) config_default)).
Definition pa := Single (a_peripheral "pa" 0 (Some
  [RCCluster (Single (a_cluster "ca" 0 [RCRegister (Single (a_register "r" 0 (Some [Single (a_field "fa" 0 1 [] None); Single (a_field "fb" 1 1 [] (Some "fa"))]) None))] None));
   RCCluster (Single (a_cluster "cb" 8 [] (Some "ca")))]) None).
Definition pb := Single (a_peripheral "pb" 64 None (Some "pa")).
Definition referring : device := a_device [pa; pb].

Example C57_peripheral_references_case :
  siblings p_name p_derived_from (fun p => In p (d_peripherals referring)) "pa" [pa] /\
  keeps_apart uppercase (cfg_peripheral_name shouting) "pb" ["pa"] /\
  follows_peripherals (named_device uppercase shouting referring) "PB" [] (Some "PA")
    [(["PA"], named_any uppercase shouting (named_peripheral uppercase shouting) pa)].
Proof.
  assert (S : siblings p_name p_derived_from (fun p => In p (d_peripherals referring)) "pa" [pa])
    by (apply (si_last p_name p_derived_from _ pa); [left; reflexivity|reflexivity]).
  assert (K : keeps_apart uppercase (cfg_peripheral_name shouting) "pb" ["pa"])
    by (intros n [<-|[]]; vm_compute; discriminate).
  split; [exact S|]. split; [exact K|]. exact (C57_peripheral_references uppercase shouting referring "pb" "pa" [pa] S K).
Qed.

Definition ca : cluster := Single (a_cluster "ca" 0 [RCRegister (Single (a_register "r" 0 (Some [Single (a_field "fa" 0 1 [] None); Single (a_field "fb" 1 1 [] (Some "fa"))]) None))] None).
Example C57_cluster_references_case :
  block_at uppercase shouting referring ["pa"] ["PA"] (or_empty (p_registers (info pa))) /\
  siblings c_name c_derived_from (fun c => In (RCCluster c) (or_empty (p_registers (info pa)))) "ca" [ca] /\
  keeps_apart uppercase (cfg_cluster_name shouting) "cb" ["ca"] /\ makes_no_dots uppercase (cfg_cluster_name shouting) ["ca"].
Proof.
  split; [exact (ba_peripheral uppercase shouting referring pa (or_introl eq_refl))|]. split; [|split].
  - apply (si_last c_name c_derived_from _ ca); [left; reflexivity|reflexivity].
  - intros n [<-|[]]; vm_compute; discriminate.
  - intros n [<-|[]]; vm_compute; intuition discriminate.
Qed.

Definition fa := Single (a_field "fa" 0 1 [] None).
Example C57_field_references_case : exists r,
  block_at uppercase shouting referring ["pa"; "ca"] ["PA"; "CA"] (c_children (info ca)) /\ In (RCRegister r) (c_children (info ca)) /\
  siblings f_name f_derived_from (fun f => In f (or_empty (r_fields (info r)))) "fa" [fa] /\
  keeps_apart uppercase (cfg_field_name shouting) "fb" ["fa"] /\ makes_no_dots uppercase (cfg_field_name shouting) ["fa"].
Proof.
  eexists. split; [|split; [left; reflexivity|split; [|split]]].
  - refine (ba_cluster uppercase shouting referring ["pa"] ["PA"] (or_empty (p_registers (info pa))) ca _ (or_introl eq_refl)).
    exact (ba_peripheral uppercase shouting referring pa (or_introl eq_refl)).
  - apply (si_last f_name f_derived_from _ fa); [left; reflexivity|reflexivity].
  - intros n [<-|[]]; vm_compute; discriminate.
  - intros n [<-|[]]; vm_compute; intuition discriminate.
Qed.
