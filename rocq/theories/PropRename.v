(** C97: the names of all peripherals can be given a common prefix, before an expansion or after it. *)
From Verif Require Import Base Types Derive Arrays Expand SpecExpand SpecUnion SpecRename RenameProofs PropExpand.

(** Expanding a description whose peripherals, and the references to them, have been given a prefix without dots and
    placeholders gives the expansion with that prefix. If one of the two fails so does the other, in the same way. *)
Theorem C97_renamed : forall pre m fuel d, inert pre -> alike (rename_device pre) (expand m fuel d) (expand m fuel (rename_device pre d)).
Proof. intros pre m fuel d P. exact (ren_expand pre P m fuel d). Qed.
Print Assumptions C97_renamed.

(** Filling in properties commutes with it as well, whatever the prefix. *)
Theorem C97_filled : forall pre d, expand_properties (rename_device pre d) = rename_device pre (expand_properties d).
Proof. exact rename_filled. Qed.
Print Assumptions C97_filled.

(** Two descriptions can be put together once one has a prefix no name in the other begins with. *)
Theorem C97_merged : forall m fuel pre a b d ea eb, inert pre -> expand m fuel a = Ok ea -> expand m fuel b = Ok eb ->
  (forall p n, In p (d_peripherals b) -> ~ is_called p_name p (pre ++ n)%string) ->
  interleaved (d_peripherals (rename_device pre a)) (d_peripherals b) (d_peripherals d) ->
  exists e, expand m fuel d = Ok e /\ interleaved (d_peripherals (rename_device pre ea)) (d_peripherals eb) (d_peripherals e).
Proof. exact rename_merge. Qed.
Print Assumptions C97_merged.

(** There is always such a prefix. *)
Theorem C97_prefix : forall m fuel b eb, expand m fuel b = Ok eb ->
  exists pre, inert pre /\ forall p n, In p (d_peripherals b) -> ~ is_called p_name p (pre ++ n)%string.
Proof. exact rename_room. Qed.
Print Assumptions C97_prefix.

(** References of every kind, across peripherals and within one, and an array with listed names *)
Definition listed : dim_element := DimElement 2 4096 None None
  (Some (DimArrayIndex None [EnumeratedValue "LEFT" None (Some 0) None; EnumeratedValue "RIGHT" None (Some 1) None])).
Definition linked : device := a_device
  [Single (a_peripheral "P" 4096 (Some
     [RCCluster (Single (a_cluster "C" 0 [RCRegister (Single (a_register "A" 0 (Some
        [Single (a_field "F" 0 2 [EnumeratedValues (Some "V") None None [on]] None)]) None))] None));
      RCRegister (Single (a_register "B" 16 None (Some "P.C.A")))]) None);
   Array (a_peripheral "Q%s" 8192 (Some
     [RCCluster (Single (a_cluster "D" 0 [] (Some "P.C")));
      RCRegister (Single (a_register "E" 32 (Some
        [Single (a_field "G" 0 2 [] (Some "P.C.A.F"));
         Single (a_field "H" 2 2 [EnumeratedValues (Some "W") None (Some "P.C.A.F.V") []] None);
         Single (a_field "I" 4 2 [EnumeratedValues None None (Some "H.W") []] None)]) None))]) None) listed;
   Single (a_peripheral "S" 20480 None (Some "LEFT"))].
Definition all_names (r : res device) : list (string * list string) :=
  match r with
  | Ok e => map (fun p => (p_name (info p), map (fun rc => match rc with RCRegister r => r_name (info r) | RCCluster c => c_name (info c) end)
              (or_empty (p_registers (info p))))) (d_peripherals e)
  | _ => []
  end.
Example C97_example : inert "X_" /\
  all_names (expand Debug 6 linked) = [("P", ["C_A"; "B"]); ("LEFT", ["D_A"; "E"]); ("RIGHT", ["D_A"; "E"]); ("S", ["D_A"; "E"])]%string /\
  all_names (expand Debug 6 (rename_device "X_" linked)) =
    [("X_P", ["C_A"; "B"]); ("X_LEFT", ["D_A"; "E"]); ("X_RIGHT", ["D_A"; "E"]); ("X_S", ["D_A"; "E"])]%string.
Proof. split; [repeat split; discriminate|]. split; vm_compute; reflexivity. Qed.
(** Put together with itself *)
Definition doubled : device := a_device (d_peripherals (rename_device "X_" linked) ++ d_peripherals linked).
Lemma linked_names p n : In p (d_peripherals linked) -> is_called p_name p n -> In n ["P"; "LEFT"; "RIGHT"; "Q%s"; "S"]%string.
Proof.
  intros [<-|[<-|[<-|[]]]] C.
  - apply (PlaceProofs.entry_names_complete _ _ ["P"]%string) in C; [|reflexivity]. destruct C as [<-|[]]. now left.
  - apply (PlaceProofs.entry_names_complete _ _ ["LEFT"; "RIGHT"; "Q%s"]%string) in C; [|vm_compute; reflexivity].
    destruct C as [<-|[<-|[<-|[]]]]; cbn; tauto.
  - apply (PlaceProofs.entry_names_complete _ _ ["S"]%string) in C; [|reflexivity]. destruct C as [<-|[]]. cbn; tauto.
Qed.
Example C97_merged_case :
  (forall p n, In p (d_peripherals linked) -> ~ is_called p_name p ("X_" ++ n)%string) /\
  interleaved (d_peripherals (rename_device "X_" linked)) (d_peripherals linked) (d_peripherals doubled) /\
  all_names (expand Debug 6 doubled) =
    [("X_P", ["C_A"; "B"]); ("X_LEFT", ["D_A"; "E"]); ("X_RIGHT", ["D_A"; "E"]); ("X_S", ["D_A"; "E"]);
     ("P", ["C_A"; "B"]); ("LEFT", ["D_A"; "E"]); ("RIGHT", ["D_A"; "E"]); ("S", ["D_A"; "E"])]%string.
Proof.
  split; [|split; [repeat constructor|vm_compute; reflexivity]].
  intros p n I C. apply (linked_names p _ I) in C. cbn in C. decompose [or] C; try discriminate; auto.
Qed.

(** A prefix with a dot in it breaks references. *)
Theorem C97_dotted_refuted : exists pre d e, expand Debug 6 d = Ok e /\ ~ inert pre /\
  expand Debug 6 (rename_device pre d) = Err (ENotFound KRegister "soc.P.C.A").
Proof.
  destruct (expand Debug 6 linked) as [e| |] eqn:E; [|vm_compute in E; discriminate..]. exists "soc."%string, linked, e.
  split; [exact E|]. split; [intros (_ & _ & _ & _ & _ & _ & _ & _ & _ & N & _); now apply N|vm_compute; reflexivity].
Qed.
Print Assumptions C97_dotted_refuted.
