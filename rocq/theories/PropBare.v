(** C95: leaving out enumerations leaves the rest of an expansion as it is. *)
From Verif Require Import Base BaseFacts Types Xml Parse Expand Top SpecParse IgnoreProofs SpecBare BareProofs PropExpand PropParse.

(** Expanding a description without its enumerations gives the expansion without its enumerations. If the full description fails
    to expand, so does the other one, in the same way, unless it is enumerated values that the error blames. *)
Theorem C95_expand : forall m fuel d,
  match expand m fuel d with
  | Ok e => expand m fuel (bare_device d) = Ok (bare_device e)
  | Err e => of_values e \/ expand m fuel (bare_device d) = Err e
  | Panic p => p = OutOfFuel \/ expand m fuel (bare_device d) = Panic p
  end.
Proof. exact bare_expand. Qed.
Print Assumptions C95_expand.

(** Whatever the other options: a text that is read is read with ignore_enums too, with the same result but for enumerations. *)
Theorem C95_options : forall m fuel document cfg s d,
  parse_with_config m fuel document cfg s = Ok d -> parse_with_config m fuel document (ignoring cfg) s = Ok (bare_device d).
Proof.
  intros m fuel document cfg s d H. unfold parse_with_config in *. cbn [ignoring pc_expand pc_expand_properties] in *.
  apply bind_ok in H as (root & -> & H). cbn [bind]. apply bind_ok in H as (n & -> & H). cbn [bind].
  apply bind_ok in H as (x & P & H). assert (Q : device_parse m (ignoring cfg) n = Ok (bare_device x)) by exact (ignore_device _ _ _ _ P).
  rewrite Q. cbn [bind]. clear P Q. 
  destruct (pc_expand_properties cfg); rewrite ?bare_filled; (destruct (pc_expand cfg); [|now injection H as <-]);
  match type of H with expand m fuel ?y = _ => pose proof (bare_expand m fuel y) as B end; rewrite H in B; exact B.
Qed.
Print Assumptions C95_options.

(** Values that refer to others, a field that inherits them, an array, a cluster and a derived peripheral *)
Definition spelled (ref : string) : device := a_device
  [Single (a_peripheral "P" 4096 (Some
     [RCCluster (Array (a_cluster "C%s" 0 [RCRegister (Single (a_register "A" 0 (Some
        [Single (a_field "F" 0 2 [EnumeratedValues (Some "V") None None [on]] None);
         Array (a_field "G%s" 2 2 [EnumeratedValues None None (Some ref) []] None) (times 2 2);
         Single (a_field "H" 6 2 [] (Some "F"))]) None))] None) (times 2 4))]) None);
   Single (a_peripheral "Q" 8192 None (Some "P"))].
Example C95_example : exists e, expand Debug 5 (spelled "V") = Ok e /\ bare_device e <> e /\
  bare_device (spelled "V") <> spelled "V" /\ List.length (d_peripherals e) = 2%nat.
Proof.
  destruct (expand Debug 5 (spelled "V")) as [e| |] eqn:E; [|vm_compute in E; discriminate..]. vm_compute in E. injection E as <-.
  eexists. split; [reflexivity|]. split; [discriminate|]. split; [discriminate|reflexivity].
Qed.
Example C95_options_case : match parse_with_config Debug 9 (fun _ => Ok (Elem "" [] [doc])) strictly "x" with
  | Ok d => bare_device d <> d /\ parse_with_config Debug 9 (fun _ => Ok (Elem "" [] [doc])) (ignoring strictly) "x" = Ok (bare_device d)
  | _ => False
  end.
Proof. vm_compute. split; [discriminate|reflexivity]. Qed.

(** The exception is needed: without its enumerations a description may expand that does not with them. *)
Theorem C95_values_refuted : exists d e b, expand Debug 5 d = Err e /\ of_values e /\ expand Debug 5 (bare_device d) = Ok b.
Proof.
  exists (spelled "W").
  destruct (expand Debug 5 (spelled "W")) as [|e|] eqn:E; [vm_compute in E; discriminate| |vm_compute in E; discriminate].
  destruct (expand Debug 5 (bare_device (spelled "W"))) as [b| |] eqn:B; [|vm_compute in B; discriminate..].
  exists e, b. split; [reflexivity|]. split; [|reflexivity]. vm_compute in E. injection E as <-. exact I.
Qed.
Print Assumptions C95_values_refuted.
