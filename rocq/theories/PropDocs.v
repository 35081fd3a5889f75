(** C98: explanatory texts decide nothing. *)
From Verif Require Import Base Types Derive Arrays Expand Validate SpecArray SpecExpand SpecDocs InstanceProofs SpecRename RenameProofs DocsProofs PropExpand.

(** Leaving the texts out, or rewriting them, gives the same expansion before as after, and the same failures. *)
Theorem C98_edited : forall say m fuel d, editing say ->
  expand m fuel (docs_device say d) =
  match expand m fuel d with Ok e => Ok (docs_device say e) | Err x => Err x | Panic p => Panic p end.
Proof. intros say m fuel d E. exact (docs_expand say E m fuel d). Qed.
Print Assumptions C98_edited.

(** Descriptions that differ in texts alone expand to descriptions that differ in texts alone, or fail alike, *)
Theorem C98_expand : forall m fuel d e, same_but_texts d e ->
  match expand m fuel d, expand m fuel e with
  | Ok d', Ok e' => same_but_texts d' e'
  | Err x, Err y => x = y
  | Panic x, Panic y => x = y
  | _, _ => False
  end.
Proof. exact texts_expand. Qed.
Print Assumptions C98_expand.

(** and the one is as valid as the other. *)
Theorem C98_valid : forall l d e, same_but_texts d e -> device_validate_all l d = device_validate_all l e.
Proof. exact texts_valid. Qed.
Print Assumptions C98_valid.

(** Filling in properties leaves texts alone. *)
Theorem C98_filled : forall say d, expand_properties (docs_device say d) = docs_device say (expand_properties d).
Proof. exact docs_filled. Qed.
Print Assumptions C98_filled.

(** Marking every text *)
Definition mark : option string -> option string := option_map (fun s => "(c) " ++ s)%string.
Lemma mark_editing : editing mark.
Proof.
  right. exists (fun s => "(c) " ++ s)%string. split; [reflexivity|]. intros idx s r H.
  pose proof (subst_filled idx ("(c) " ++ s)%string) as F. assert (I : inert "(c) ") by (repeat split; discriminate).
  pose proof (subst_longer "(c) " I idx s) as L. unfold longer in L. rewrite L in F.
  now rewrite (filled_unique _ _ _ _ H (subst_filled idx s)).
Qed.
Definition explained (a b : string) : device := a_device
  [Single (PeripheralInfo "P" (Some a) None (Some b) None None None None None 4096 rp_default None [Interrupt "IRQ" (Some b) 3]
     (Some [RCRegister (Array (RegisterInfo "A%s" None (Some (b ++ " %s")%string) None None 0 rp_default None None None None
        (Some [Single (FieldInfo "F" (Some a) (BitRange 0 2 BRT_OffsetWidth) None None None None
           [EnumeratedValues (Some "V") None None [EnumeratedValue "ON" (Some b) (Some 1) None]] None)]) None)
        (DimElement 2 4 None None (Some (DimArrayIndex None [EnumeratedValue "LAST" (Some a) (Some 1) None]))))]) None);
   Single (PeripheralInfo "Q" None None (Some a) None None None None None 8192 rp_default None [] None (Some "P"))].
Definition said (r : res device) : list (string * option string) :=
  match r with
  | Ok e => flat_map (fun p => (p_name (info p), p_description (info p)) ::
      flat_map (fun rc => match rc with RCRegister r => [(r_name (info r), r_description (info r))] | _ => [] end)
               (or_empty (p_registers (info p)))) (d_peripherals e)
  | _ => []
  end.
Example C98_example : editing mark /\ same_but_texts (explained "one" "two") (explained "uno" "due") /\
  said (expand Debug 4 (explained "one" "two")) =
    [("P", Some "two"); ("A0", Some "two 0"); ("LAST", Some "one"); ("Q", Some "one"); ("A0", Some "two 0"); ("LAST", Some "one")]%string /\
  said (expand Debug 4 (explained "uno" "due")) =
    [("P", Some "due"); ("A0", Some "due 0"); ("LAST", Some "uno"); ("Q", Some "uno"); ("A0", Some "due 0"); ("LAST", Some "uno")]%string /\
  said (expand Debug 4 (docs_device mark (explained "one" "two"))) =
    [("P", Some "(c) two"); ("A0", Some "(c) two 0"); ("LAST", Some "(c) one");
     ("Q", Some "(c) one"); ("A0", Some "(c) two 0"); ("LAST", Some "(c) one")]%string.
Proof. split; [exact mark_editing|]. split; [reflexivity|]. repeat split; vm_compute; reflexivity. Qed.

(** Texts that gain a placeholder are another matter. *)
Theorem C98_placeholder_refuted : exists t m fuel d e,
  expand m fuel d = Ok e /\ expand m fuel (docs_device (option_map t) d) <> Ok (docs_device (option_map t) e).
Proof.
  exists (fun s => s ++ "%s")%string, Debug, 4%nat, (explained "one" "two").
  destruct (expand Debug 4 (explained "one" "two")) as [e| |] eqn:E; [|vm_compute in E; discriminate..]. exists e. split; [reflexivity|].
  vm_compute in E. injection E as <-. vm_compute. discriminate.
Qed.
Print Assumptions C98_placeholder_refuted.
