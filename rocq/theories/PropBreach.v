(** C87: the error validation gives is that of the first broken rule of the first wrong element. *)
From Verif Require Import BaseFacts Types Names Validate SpecArray SpecValidate PropValidate SpecBreach BreachProofs.

(** Each single check obeys its list of rules, in order. *)
Theorem C87_properties : forall l p, judged l (EProps p) (rp_validate l p).
Proof. exact props_judged. Qed.
Print Assumptions C87_properties.
Theorem C87_value : forall l e, judged l (EValue e) (ev_validate l e).
Proof. exact value_judged. Qed.
Print Assumptions C87_value.
Theorem C87_values : forall l e, judged l (EValues e) (evs_validate l e).
Proof. exact values_judged. Qed.
Print Assumptions C87_values.
Theorem C87_field : forall l f, judged l (EField f) (field_validate l f).
Proof. exact field_judged. Qed.
Print Assumptions C87_field.
Theorem C87_register : forall l r, judged l (ERegister r) (register_validate l r).
Proof. exact register_judged. Qed.
Print Assumptions C87_register.
Theorem C87_cluster : forall l c, judged l (ECluster c) (cluster_validate l c).
Proof. exact cluster_judged. Qed.
Print Assumptions C87_cluster.
Theorem C87_peripheral : forall l p, judged l (EPeripheral p) (peripheral_validate l p).
Proof. exact peripheral_judged. Qed.
Print Assumptions C87_peripheral.
Theorem C87_device : forall l d, judged l (EDevice d) (device_validate l d).
Proof. exact device_judged. Qed.
Print Assumptions C87_device.
(** The rules leave no choice: they give one outcome at most. *)
Theorem C87_one_verdict : forall l x r s, judged l x r -> judged l x s -> r = s.
Proof. exact judged_fun. Qed.
Print Assumptions C87_one_verdict.

(** Whole trees: the error is that of the first wrong element in the order of checking. *)
Definition first_blamed (l : level) (walk : list element) (e : err) : Prop :=
  exists before x after, walk = before ++ x :: after /\ Forall (element_ok l) before /\ blamed l x e.
Theorem C87_device_all : forall l d e, device_validate_all l d = Err e <-> first_blamed l (device_walk d) e.
Proof. intros l d e. exact (blame_exact l _ _ e (walk_device l d)). Qed.
Print Assumptions C87_device_all.
Theorem C87_peripheral_all : forall l p e, peripheral_validate_all l p = Err e <-> first_blamed l (peripheral_walk (info p)) e.
Proof. intros l p e. unfold peripheral_validate_all. rewrite ValidateProofs.ma_validate_all_ok. exact (blame_exact l _ _ e (walk_peripheral l (info p))). Qed.
Print Assumptions C87_peripheral_all.
Theorem C87_child_all : forall l rc e, rc_validate_all l rc = Err e <-> first_blamed l (rc_walk rc) e.
Proof. intros l rc e. exact (blame_exact l _ _ e (walk_rc l rc)). Qed.
Print Assumptions C87_child_all.
Theorem C87_field_all : forall l f e, field_validate_all l f = Err e <-> first_blamed l (field_walk (info f)) e.
Proof. intros l f e. unfold field_validate_all. rewrite ValidateProofs.ma_validate_all_ok. exact (blame_exact l _ _ e (walk_field l (info f))). Qed.
Print Assumptions C87_field_all.
Theorem C87_values_all : forall l es e, evs_validate_all l es = Err e <-> first_blamed l (values_walk es) e.
Proof. intros l es e. exact (blame_exact l _ _ e (walk_values l es)). Qed.
Print Assumptions C87_values_all.
(** The order of checking leaves out no element and adds none. *)
Theorem C87_walk : forall d x, In x (device_walk d) <-> in_device d x.
Proof. exact in_device_walk. Qed.
Print Assumptions C87_walk.

(** A field with two wrong names, no width, and two sets of values: what is reported depends on the level and on what is put right. *)
Definition faulty (n : string) (w : N) : field_info :=
  {| f_name := n; f_description := None; f_bit_range := {| br_offset := 3; br_width := w; br_type := BRT_BitRange |};
     f_access := None; f_mwv := None; f_write_constraint := Some (WcRange 9 4); f_read_action := None;
     f_enumerated_values := [{| evs_name := None; evs_usage := None; evs_derived_from := None; evs_values := [sample_value "A" (Some 7) None] |};
                             {| evs_name := None; evs_usage := None; evs_derived_from := None; evs_values := [] |}];
     f_derived_from := Some "P.R 1.F!" |}.
Example C87_field_case : field_validate Strict (faulty "a b" 0) = Err (EName "a b" "name") /\
  field_validate Strict (faulty "a" 0) = Err (EName "R 1" "derivedFrom") /\
  field_validate Weak (faulty "a b" 0) = Err EZeroWidth /\
  field_validate Weak (faulty "a b" 2) = Err (EEvOutOfRange 7 0 4) /\
  field_validate Weak (faulty "a b" 3) = Err (EWcReversedRange 9 4) /\
  field_validate_all Weak (Single (faulty "a b" 0)) = Err EEvsEmpty /\
  field_validate_all Disabled (Single (faulty "a b" 0)) = Ok tt.
Proof. repeat split. Qed.
(** In a block the registers are checked before the clusters, whichever comes first in the file, and parts before the whole. *)
Definition two_faults : register_cluster :=
  wrap "A B" [wrap "C" []; RCRegister (Single (deep_register "R 1"))].
Example C87_tree_case : rc_validate_all Strict two_faults = Err (EName "R 1" "name") /\
  rc_validate_all Strict (wrap "A B" [wrap "C" []]) = Err EEmptyCluster /\
  rc_validate_all Strict (wrap "A B" [wrap "C" [RCRegister (Single (deep_register "R1"))]]) = Err (EName "A B" "name") /\
  first_blamed Strict (rc_walk two_faults) (EName "R 1" "name").
Proof.
  assert (H : rc_validate_all Strict two_faults = Err (EName "R 1" "name")) by reflexivity.
  split; [exact H|]. split; [reflexivity|]. split; [reflexivity|]. now apply C87_child_all.
Qed.
