(** C93: registers can be found by name after expansion. *)
From Verif Require Import Base Types Arrays Expand SpecArray SpecExpand SpecFlat ExpandProofs FlatProofs FindProofs PropExpand.

(** A register of an instance of a peripheral, below instances of clusters, is found under the names on the way, joined, as
    long as no other has the same name; and it has the properties that it is written with, at the sum of the offsets. *)
Theorem C93_find : forall m fuel d e p ss sss n b kids l s, underived d -> expand m fuel d = Ok e ->
  In p (d_peripherals d) -> spots p_name p_base_address p ss -> In (n, b) ss ->
  Forall2 (spots p_name p_base_address) (d_peripherals d) sss -> NoDup (map fst (List.concat sss)) ->
  p_registers (info p) = Some kids -> layout kids l -> In s l -> NoDup (map (fun s => glue "_" (s_names s)) l) ->
  exists q r, get_peripheral e n = Some (Single q) /\ agrees m (2 ^ 64) b (p_base_address q) /\
    get_register (p_children q) (glue "_" (s_names s)) = Some (Single r) /\ at_spot m s r.
Proof.
  intros m fuel d e p ss sss n b kids l s U E. destruct (C34_layout m fuel d e U E) as (groups & G & F).
  exact (find_there m d e groups G F p ss sss n b kids l s).
Qed.
Print Assumptions C93_find.
(** What is found stands for one of the registers with that name. *)
Theorem C93_found : forall m fuel d e n x q r, underived d -> expand m fuel d = Ok e ->
  get_peripheral e n = Some q -> get_register (p_children (info q)) x = Some r ->
  exists p ss b kids l s, In p (d_peripherals d) /\ spots p_name p_base_address p ss /\ In (n, b) ss /\
    agrees m (2 ^ 64) b (p_base_address (info q)) /\ p_registers (info p) = Some kids /\ layout kids l /\ In s l /\
    x = glue "_" (s_names s) /\ at_spot m s (info r).
Proof.
  intros m fuel d e n x q r U E. destruct (C34_layout m fuel d e U E) as (groups & G & F).
  exact (found_there m d e groups G F n x q r).
Qed.
Print Assumptions C93_found.

Definition looked (e : res device) (n x : string) : option (N * N) :=
  match e with
  | Ok e => match get_peripheral e n with
            | Some q => option_map (fun r => (p_base_address (info q), r_address_offset (info r))) (get_register (p_children (info q)) x)
            | None => None
            end
  | _ => None
  end.
Example C93_found_case : underived nested /\ looked (expand Debug 4 nested) "T1" "CH1_IN_Q" = Some (20480, 352).
Proof. split; [repeat constructor|vm_compute; reflexivity]. Qed.
Lemma agrees_debug b x y : agrees Debug b x y -> y = x.
Proof. intros [_ H]. now apply H. Qed.
Definition nested_expanded : device := Eval vm_compute in match expand Debug 4 nested with Ok e => e | _ => nested end.
Lemma nested_expands : expand Debug 4 nested = Ok nested_expanded.
Proof. vm_compute. reflexivity. Qed.
Example C93_find_case : underived nested /\ expand Debug 4 nested = Ok nested_expanded /\
  exists p ss kids l s, In p (d_peripherals nested) /\ spots p_name p_base_address p ss /\ In ("T1"%string, 20480) ss /\
  Forall2 (spots p_name p_base_address) (d_peripherals nested) [ss] /\ NoDup (map fst (List.concat [ss])) /\
  p_registers (info p) = Some kids /\ layout kids l /\ In s l /\ NoDup (map (fun s => glue "_" (s_names s)) l) /\
  glue "_" (s_names s) = "CH1_IN_Q"%string /\ s_offset s = 352.
Proof.
  assert (U : underived nested) by repeat constructor. split; [exact U|]. split; [exact nested_expands|].
  destruct (C34_layout Debug 4 nested nested_expanded U nested_expands) as (groups & G & F).
  inversion F as [|p out ps outs (ss & S & Fs) F0 Ep Eo]. inversion F0. subst ps. subst. cbn [List.concat] in G. rewrite app_nil_r in G.
  destruct out as [|q0 [|q1 [|? ?]]]; try discriminate G. cbn [map d_peripherals nested_expanded] in G. injection G as G0 G1.
  inversion Fs as [|s0 ? ss1 ? (N0 & B0 & K0) Fs1]; subst. inversion Fs1 as [|s1 ? ss2 ? (N1 & B1 & _) Fs2]; subst. inversion Fs2; subst.
  apply agrees_debug in B0, B1. destruct s0 as [n0 b0], s1 as [n1 b1]. cbn in N0, N1, B0, B1. subst n0 n1 b0 b1.
  cbn [info p_registers a_peripheral] in K0. destruct K0 as (l & regs & L & At & R). cbn in R. injection R as R.
  eexists _, _, _, l. 
  assert (Ns : map (fun s => (glue "_" (s_names s), s_offset s)) l = map (fun r => (r_name r, r_address_offset r)) regs).
  { clear - At. induction At as [|s r l regs (N & A & _) At IH]; cbn [map]; [reflexivity|].
    apply agrees_debug in A. now rewrite N, A, IH. }
  assert (Rs : map (fun r => (r_name r, r_address_offset r)) regs =
     map (fun rc => match rc with RCRegister r => (r_name (info r), r_address_offset (info r)) | RCCluster c => (""%string, 0) end)
       (map (fun i => RCRegister (Single i)) regs)) by (rewrite map_map; reflexivity).
  rewrite <- R in Rs. cbn in Rs. rewrite Rs in Ns. clear Rs R At.
  assert (I : In ("CH1_IN_Q"%string, 352) (map (fun s => (glue "_" (s_names s), s_offset s)) l)) by (rewrite Ns; cbn; auto 10).
  apply in_map_iff in I as (s & Es & I). injection Es as Es Os. exists s.
  split; [now left|]. split; [exact S|]. split; [cbn; auto|]. split; [constructor; [exact S|constructor]|].
  split; [cbn; repeat constructor; cbn; intuition discriminate|]. split; [reflexivity|]. split; [exact L|]. split; [exact I|].
  split; [|auto].
  apply (f_equal (map fst)) in Ns. rewrite map_map in Ns. cbn [fst] in Ns. rewrite Ns. cbn.
  repeat (constructor; [cbn; intuition discriminate|]). constructor.
Qed.

(** Joined names can clash although the names on every level differ; then only the first of the two can be found. *)
Definition clashing : device := a_device [Single (a_peripheral "P" 4096 (Some
  [RCCluster (Single (a_cluster "A" 0 [RCRegister (Single (a_register "B_C" 0 None None))] None));
   RCCluster (Single (a_cluster "A_B" 16 [RCRegister (Single (a_register "C" 0 None None))] None))]) None)].
Definition offsets (e : res device) : list (string * N) :=
  match e with
  | Ok e => flat_map (fun p => map (fun rc => match rc with RCRegister r => (r_name (info r), r_address_offset (info r)) | RCCluster c => (c_name (info c), 0) end)
              (p_children (info p))) (d_peripherals e)
  | _ => []
  end.
Theorem C93_clash_refuted : exists d, underived d /\ offsets (expand Debug 4 d) = [("A_B_C"%string, 0); ("A_B_C"%string, 16)] /\
  looked (expand Debug 4 d) "P" "A_B_C" = Some (4096, 0).
Proof. exists clashing. split; [repeat constructor|split; vm_compute; reflexivity]. Qed.
Print Assumptions C93_clash_refuted.
