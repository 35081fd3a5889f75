(** C85: the properties of the registers of a description with defaults filled in and then expanded. *)
From Verif Require Import Base Types Arrays Expand SpecExpand SpecProps SpecLeaves ExpandProofs LeafProofs PropExpand.

(** ** C85: resolving properties and expanding together *)
Theorem C85_properties : forall m fuel d e, plain_device d -> expand m fuel (expand_properties d) = Ok e ->
  exists psss, Forall2 (leaves_of_peripheral (d_default_properties d)) (d_peripherals d) psss /\
    map flat_properties (d_peripherals e) = List.concat psss.
Proof. exact device_leaves. Qed.
Print Assumptions C85_properties.

(** So with defaults for the whole device, nothing is left open. *)
Theorem C85_complete : forall m fuel d e, plain_device d -> expand m fuel (expand_properties d) = Ok e ->
  forall p q, In p (d_peripherals e) -> In q (flat_properties p) -> at_least (d_default_properties d) q.
Proof. exact device_complete. Qed.
Print Assumptions C85_complete.

(** Peripherals P0 and P1 with a size of their own, an array of clusters and an array of registers *)
Definition sized (n : N) : reg_props := RegProps (Some n) None None None None.
Definition resetting (n : N) : reg_props := RegProps None None None (Some n) None.
Definition own (p : reg_props) (i : register_info) : register_info :=
  RegisterInfo (r_name i) None None None None (r_address_offset i) p None None None None (r_fields i) (r_derived_from i).
Definition mixed : device := a_device
  [Array (PeripheralInfo "P%s" None None None None None None None None 4096 (sized 16) None [] (Some
     [RCCluster (Array (ClusterInfo "C%s" None None None 0 (resetting 7)
        [RCRegister (Single (a_register "A" 0 None None));
         RCRegister (Array (own (sized 8) (a_register "B%s" 2 None None)) (times 2 1))] None) (times 2 8));
      RCRegister (Single (a_register "D" 32 None None))]) None) (times 2 4096)].
Definition settings (d : device) : list (list (option N * option N)) :=
  map (fun p => map (fun q => (rp_size q, rp_reset_value q)) (flat_properties p)) (d_peripherals d).
Definition after (r : res device) : list (list (option N * option N)) := match r with Ok d => settings d | _ => [] end.
Example C85_example : plain_device mixed /\
  let l := [(Some 16, Some 7); (Some 8, Some 7); (Some 8, Some 7); (Some 16, Some 7); (Some 8, Some 7); (Some 8, Some 7); (Some 16, Some 0)] in
  after (expand Debug 4 (expand_properties mixed)) = [l; l].
Proof. split; [repeat constructor|vm_compute; reflexivity]. Qed.

Definition filled_first : device := Eval vm_compute in ok_or_self (expand Debug 4 (expand_properties mixed)) mixed.
Definition expanded_first : device := Eval vm_compute in ok_or_self (expand Debug 4 mixed) mixed.
(** The other order gives something else: once expanded, a register no longer knows the defaults of its cluster. *)
Theorem C85_other_order_refuted : exists d a b, plain_device d /\
  expand Debug 4 (expand_properties d) = Ok a /\ expand Debug 4 d = Ok b /\
  d_peripherals a <> d_peripherals (expand_properties b).
Proof.
  exists mixed, filled_first, expanded_first. split; [repeat constructor|]. split; [vm_compute; reflexivity|]. split; [vm_compute; reflexivity|].
  intros E. apply (f_equal (map flat_properties)) in E. vm_compute in E. discriminate E.
Qed.
Print Assumptions C85_other_order_refuted.

(** With derivedFrom: the registers that a derived peripheral states itself are left without a size, and those that it
    inherits have the size of the peripheral they come from. *)
Definition derives : device := a_device
  [Single (a_peripheral "T0" 16384 (Some [RCRegister (Single (a_register "CR" 0 None None))]) None);
   Single (PeripheralInfo "T1" None None None None None None None None 20480 (sized 8) None []
     (Some [RCRegister (Single (a_register "X" 4 None None))]) (Some "T0"));
   Single (PeripheralInfo "T2" None None None None None None None None 24576 (sized 8) None [] None (Some "T0"))].
Definition derives_expanded : device := Eval vm_compute in ok_or_self (expand Debug 4 (expand_properties derives)) derives.
Definition sizes (d : device) : list (option N * list (option N)) :=
  map (fun p => (rp_size (p_default_properties (info p)), map rp_size (flat_properties p))) (d_peripherals d).
Theorem C85_derived_refuted : exists d e, rp_size (d_default_properties d) = Some 32 /\
  expand Debug 4 (expand_properties d) = Ok e /\
  In (Some 8, [None]) (sizes e) /\ In (Some 8, [Some 32]) (sizes e).
Proof.
  exists derives, derives_expanded. split; [reflexivity|]. split; [vm_compute; reflexivity|].
  split; [right; left; reflexivity|right; right; left; reflexivity].
Qed.
Print Assumptions C85_derived_refuted.
