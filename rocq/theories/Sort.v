(** Sorting of the encoder's output. *)
From Verif Require Import Base Types Config.

(** ** slice::sort_by_key *)

(** The standard library's sort_by_key is a stable sort; a stable sort by a total
    preorder has exactly one result, here computed by insertion. *)
Section Sort.
  Context {A K : Type}.
  Variable leb : K -> K -> bool.
  Fixpoint insert_key (x : K * A) (l : list (K * A)) : list (K * A) :=
    match l with
    | [] => [x]
    | y :: l' => if leb (fst x) (fst y) then x :: y :: l' else y :: insert_key x l'
    end.
  Fixpoint sort_keyed (l : list (K * A)) : list (K * A) :=
    match l with
    | [] => []
    | x :: l' => insert_key x (sort_keyed l')
    end.
  (** Keys are computed during comparisons: every element of a slice of two or more
      takes part in one, and a slice of fewer elements compares nothing. *)
  Definition sort_by_key (key : A -> res K) (l : list A) : res (list A) :=
    match l with
    | [] | [_] => Ok l
    | _ =>
        let* kl := mapM (fun a => let* k := key a in Ok (k, a)) l in
        Ok (map snd (sort_keyed kl))
    end.
End Sort.

(** [x as i32]: the low 32 bits as a two's complement number. *)
Definition as_i32 (n : N) : Z :=
  let r := n mod pow32 in
  if r <? 2147483648 then Z.of_N r else (Z.of_N r - 4294967296)%Z.
(** [-(x as i32)]: negating i32::MIN overflows (Debug) or gives itself (Release). *)
Definition neg_i32 (m : mode) (n : N) : res Z :=
  let z := as_i32 n in
  if Z.eqb z (-2147483648) then match m with Debug => Panic Overflow | Release => Ok z end
  else Ok (- z)%Z.

(** The three match arms shared by sort_peripherals (svd-encoder/src/device.rs:97-107),
    sort_register_cluster (peripheral.rs:142-152) and sort_fields (register.rs:114-124):
    [offset] and [name] are the keys. Ordering of str is by bytes. *)
Definition sort_items {A} (m : mode) (offset : A -> N) (name : A -> string)
    (s : option sorting) (l : list A) : res (list A) :=
  match s with
  | None => Ok l
  | Some ByOffset => sort_by_key N.leb (fun a => Ok (offset a)) l
  | Some ByOffsetReversed => sort_by_key Z.leb (fun a => neg_i32 m (offset a)) l
  | Some ByName => sort_by_key String.leb (fun a => Ok (name a)) l
  end.
(** The two arms shared by sort_derived_peripherals (device.rs:109-134),
    sort_derived_register_cluster (peripheral.rs:154-180) and sort_derived_fields
    (register.rs:126-160); pushing to two vectors in one loop is the two filters. *)
Definition sort_derivable {A} (m : mode) (offset : A -> N) (name : A -> string) (derived : A -> bool)
    (s : derivable_sorting) (l : list A) : res (list A) :=
  match s with
  | Unchanged s => sort_items m offset name s l
  | DeriveLast s =>
      let* common := sort_items m offset name s (filter (fun a => negb (derived a)) l) in
      let* der := sort_items m offset name s (filter derived l) in
      Ok (common ++ der)
  end.

(** device.rs:97-134 *)
Definition sort_peripherals (m : mode) : derivable_sorting -> list peripheral -> res (list peripheral) :=
  sort_derivable m (fun p => p_base_address (info p)) (fun p => p_name (info p))
    (fun p => is_some (p_derived_from (info p))).
(** peripheral.rs:142-180 *)
Definition sort_rcs (m : mode) : derivable_sorting -> list register_cluster -> res (list register_cluster) :=
  sort_derivable m rc_address_offset rc_name (fun rc => is_some (rc_derived_from rc)).
(** register.rs:114-160: a field also counts as derived if one of its enumerated values is;
    bit_offset() is the lsb *)
Definition field_derived (f : field) : bool :=
  is_some (f_derived_from (info f))
  || existsb (fun e => is_some (evs_derived_from e)) (f_enumerated_values (info f)).
Definition sort_fields (m : mode) : derivable_sorting -> list field -> res (list field) :=
  sort_derivable m (fun f => br_offset (f_bit_range (info f))) (fun f => f_name (info f)) field_derived.

(** peripheral.rs:182-203 *)
Definition is_register (rc : register_cluster) : bool :=
  match rc with RCRegister _ => true | RCCluster _ => false end.
Definition rc_sort (m : mode) (v : list register_cluster) (s : derivable_sorting) (register_first : bool)
  : res (list register_cluster) :=
  let* regs := sort_rcs m s (filter is_register v) in
  let* cs := sort_rcs m s (filter (fun rc => negb (is_register rc)) v) in
  Ok (if register_first then regs ++ cs else cs ++ regs).
(** The match on config.register_cluster_sorting: peripheral.rs:107-123. The arm for the
    unchanged order, which skips sorting, equals sorting by nothing. *)
Definition sort_registers (m : mode) (s : rc_sorting) (v : list register_cluster)
  : res (list register_cluster) :=
  match s with
  | RcUnchanged s => sort_rcs m s v
  | RegistersFirst s => rc_sort m v s true
  | ClustersFirst s => rc_sort m v s false
  end.
