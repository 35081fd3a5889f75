(** C92: the expansion of a peripheral depends on nothing but what it refers to. *)
From Verif Require Import Base Types Derive Arrays Expand SpecArray SpecExpand SpecUnion UnionProofs PropExpand.

(** Two descriptions with no name of a peripheral in common can be expanded together or apart. *)
Theorem C92_union : forall m fuel a b d ea eb, interleaved (d_peripherals a) (d_peripherals b) (d_peripherals d) ->
  strangers (d_peripherals a) (d_peripherals b) -> expand m fuel a = Ok ea -> expand m fuel b = Ok eb ->
  exists e, expand m fuel d = Ok e /\ interleaved (d_peripherals ea) (d_peripherals eb) (d_peripherals e).
Proof. exact expand_union. Qed.
Print Assumptions C92_union.

(** Adding peripherals with new names changes nothing about the others, whatever the new ones refer to. *)
Theorem C92_added : forall m fuel a new d ea e, interleaved (d_peripherals a) new (d_peripherals d) ->
  strangers (d_peripherals a) new -> expand m fuel a = Ok ea -> expand m fuel d = Ok e ->
  exists l, interleaved (d_peripherals ea) l (d_peripherals e).
Proof. exact expand_part. Qed.
Print Assumptions C92_added.

Definition plainly (n : string) (a : N) (r : string) : peripheral :=
  Single (a_peripheral n a (Some [RCRegister (Single (a_register r 0 None None))]) None).
Definition derived (n : string) (a : N) (s : string) : peripheral := Single (a_peripheral n a None (Some s)).
Definition timers : device := a_device [plainly "T0" 4096 "CR"; derived "T1" 8192 "T0"].
Definition ports : device := a_device
  [Array (a_peripheral "U%s" 12288 (Some [RCRegister (Single (a_register "DR" 4 None None))]) None) (times 2 4096)].
Definition added : list peripheral := d_peripherals ports ++ [derived "V" 32768 "T1"].
Definition all_of_them : device := a_device
  [plainly "T0" 4096 "CR"; Array (a_peripheral "U%s" 12288 (Some [RCRegister (Single (a_register "DR" 4 None None))]) None) (times 2 4096);
   derived "T1" 8192 "T0"; derived "V" 32768 "T1"].
Definition registers_there (r : res device) : list (string * list string) :=
  match r with
  | Ok e => map (fun p => (p_name (info p), map (fun rc => match rc with RCRegister r => r_name (info r) | RCCluster c => c_name (info c) end)
              (or_empty (p_registers (info p))))) (d_peripherals e)
  | _ => []
  end.
Lemma added_strangers : strangers (d_peripherals timers) added.
Proof.
  intros p q n P Q C D.
  assert (N : n = "T0"%string \/ n = "T1"%string).
  { destruct P as [<-|[<-|[]]]; (destruct C as [->|(i & d & k & x & E & _)]; [cbn; tauto|discriminate E]). }
  assert (M : In n ["U0"; "U1"; "U%s"; "V"]%string).
  { destruct Q as [<-|[<-|[]]].
    - apply (PlaceProofs.entry_names_complete _ _ ["U0"; "U1"; "U%s"]%string) in D; [|vm_compute; reflexivity].
      destruct D as [<-|[<-|[<-|[]]]]; cbn; auto.
    - destruct D as [->|(i & d & k & x & E & _)]; [cbn; auto|discriminate E]. }
  destruct N as [->| ->]; cbn in M; decompose [or] M; try discriminate; auto.
Qed.
Example C92_example : interleaved (d_peripherals timers) added (d_peripherals all_of_them) /\ strangers (d_peripherals timers) added /\
  registers_there (expand Debug 4 timers) = [("T0", ["CR"]); ("T1", ["CR"])]%string /\
  registers_there (expand Debug 4 all_of_them) = [("T0", ["CR"]); ("U0", ["DR"]); ("U1", ["DR"]); ("T1", ["CR"]); ("V", ["CR"])]%string.
Proof.
  split; [repeat constructor|]. split; [exact added_strangers|]. split; vm_compute; reflexivity.
Qed.
Lemma ports_strangers : strangers (d_peripherals timers) (d_peripherals ports).
Proof. intros p q n P Q. apply added_strangers; [exact P|]. apply in_or_app. now left. Qed.
Definition together : device := a_device (d_peripherals timers ++ d_peripherals ports).
Example C92_union_case : interleaved (d_peripherals timers) (d_peripherals ports) (d_peripherals together) /\
  strangers (d_peripherals timers) (d_peripherals ports) /\
  registers_there (expand Debug 4 ports) = [("U0", ["DR"]); ("U1", ["DR"])]%string /\
  registers_there (expand Debug 4 together) = [("T0", ["CR"]); ("T1", ["CR"]); ("U0", ["DR"]); ("U1", ["DR"])]%string.
Proof. split; [repeat constructor|]. split; [exact ports_strangers|]. split; vm_compute; reflexivity. Qed.

(** With a name in common it is not so: what is derived from that name changes. *)
Definition shadowed : device := a_device (d_peripherals timers ++ [plainly "T0" 16384 "DR"]).
Theorem C92_shared_refuted : exists a new d, interleaved (d_peripherals a) new (d_peripherals d) /\
  registers_there (expand Debug 4 a) = [("T0", ["CR"]); ("T1", ["CR"])]%string /\
  registers_there (expand Debug 4 d) = [("T0", ["CR"]); ("T1", ["DR"]); ("T0", ["DR"])]%string.
Proof.
  exists timers, [plainly "T0" 16384 "DR"], shadowed. split; [repeat constructor|]. split; vm_compute; reflexivity.
Qed.
Print Assumptions C92_shared_refuted.
