(** Expansion of arrays, clusters and derivedFrom: svd-parser/src/expand.rs. *)
From Verif Require Import Base Types Derive Arrays.

(** ** Paths *)

(** expand.rs:14-17, 94-97, 141-144, 201-204 *)
Record block_path := BlockPath { bp_peripheral : string; bp_path : list string }.
Record register_path := RegisterPath { rg_block : block_path; rg_name : string }.
Record field_path := FieldPath { fp_register : register_path; fp_name : string }.
Record enum_path := EnumPath { ep_field : field_path; ep_name : string }.

(** expand.rs:20-33, 106-108, 153-155 *)
Definition bp_new (p : string) : block_path := BlockPath p [].
Definition new_cluster (b : block_path) (n : string) : block_path :=
  BlockPath (bp_peripheral b) (bp_path b ++ [n]).
Definition new_register (b : block_path) (n : string) : register_path := RegisterPath b n.
Definition new_field (r : register_path) (n : string) : field_path := FieldPath r n.
Definition new_enum (f : field_path) (n : string) : enum_path := EnumPath f n.

(** Vec::pop *)
Fixpoint pop {A} (l : list A) : option (list A * A) :=
  match l with
  | [] => None
  | [a] => Some ([], a)
  | a :: l' => match pop l' with Some (i, z) => Some (a :: i, z) | None => None end
  end.
(** expand.rs:37-48 *)
Definition bp_parse_vec (v : list string) : res (option block_path * string) :=
  let* q := unwrap (pop v) in
  match fst q with
  | [] => Ok (None, snd q)
  | p :: path => Ok (Some (BlockPath p path), snd q)
  end.
(** expand.rs:34-36, and 109-114 for registers *)
Definition bp_parse_str (s : string) : res (option block_path * string) := bp_parse_vec (split "." s).
(** expand.rs:159-171: expect on the block of a two-part path *)
Definition fp_parse_vec (v : list string) : res (option register_path * string) :=
  let* q := unwrap (pop v) in
  if is_nil (fst q) then Ok (None, snd q)
  else
    let* r := bp_parse_vec (fst q) in
    let* block := unwrap (fst r) in
    Ok (Some (RegisterPath block (snd r)), snd q).
(** expand.rs:156-158 *)
Definition fp_parse_str (s : string) : res (option register_path * string) := fp_parse_vec (split "." s).
(** expand.rs:49-56 *)
Definition bp_name (b : block_path) : res string := unwrap (option_map snd (pop (bp_path b))).
Definition bp_parent (b : block_path) : option block_path :=
  match pop (bp_path b) with
  | Some (i, _) => Some (BlockPath (bp_peripheral b) i)
  | None => None
  end.

(** derive(PartialEq): expand.rs:13, 93, 140, 200 *)
Fixpoint strs_eqb (a b : list string) : bool :=
  match a, b with
  | [], [] => true
  | x :: a', y :: b' => seqb x y && strs_eqb a' b'
  | _, _ => false
  end.
Definition bp_eqb (a b : block_path) : bool :=
  seqb (bp_peripheral a) (bp_peripheral b) && strs_eqb (bp_path a) (bp_path b).
Definition rg_eqb (a b : register_path) : bool :=
  bp_eqb (rg_block a) (rg_block b) && seqb (rg_name a) (rg_name b).
Definition fp_eqb (a b : field_path) : bool :=
  rg_eqb (fp_register a) (fp_register b) && seqb (fp_name a) (fp_name b).
Definition ep_eqb (a b : enum_path) : bool :=
  fp_eqb (ep_field a) (ep_field b) && seqb (ep_name a) (ep_name b).

(** [for p in parts.zip(path.iter()) { if p.0 != p.1 { return false } }; true] *)
Fixpoint zip_same (a b : list string) : bool :=
  match a, b with
  | x :: a', y :: b' => seqb x y && zip_same a' b'
  | _, _ => true
  end.
(** PartialEq<str>: expand.rs:59-79, 120-128, 180-188, 224-232 *)
Definition bp_eq_str (b : block_path) (other : string) : bool :=
  let parts := split "." other in
  if negb (Nat.eqb (List.length parts) (List.length (bp_path b) + 1)) then false
  else match parts with
       | part1 :: rest => seqb (bp_peripheral b) part1 && zip_same rest (bp_path b)
       | [] => false
       end.
Definition rg_eq_str (r : register_path) (other : string) : bool :=
  match rsplit_once "." other with
  | Some (block, reg) => seqb (rg_name r) reg && bp_eq_str (rg_block r) block
  | None => false
  end.
Definition fp_eq_str (f : field_path) (other : string) : bool :=
  match rsplit_once "." other with
  | Some (reg, n) => seqb (fp_name f) n && rg_eq_str (fp_register f) reg
  | None => false
  end.
Definition ep_eq_str (e : enum_path) (other : string) : bool :=
  match rsplit_once "." other with
  | Some (f, n) => seqb (ep_name e) n && fp_eq_str (ep_field e) f
  | None => false
  end.

(** Display: expand.rs:81-90, 130-137, 190-197, 234-241 *)
Definition bp_show (b : block_path) : string :=
  (bp_peripheral b ++ concat "" (map (fun p => "." ++ p)%string (bp_path b)))%string.
Definition rg_show (r : register_path) : string := (bp_show (rg_block r) ++ "." ++ rg_name r)%string.
Definition fp_show (f : field_path) : string := (rg_show (fp_register f) ++ "." ++ fp_name f)%string.
Definition ep_show (e : enum_path) : string := (fp_show (ep_field e) ++ "." ++ ep_name e)%string.

(** ** Index *)

(** expand.rs:244-250. The five hash maps are kept as one log of insertions; a lookup
    finds the last insertion under the path, as HashMap::insert overwrites. *)
Inductive entry :=
  | InPeripheral (path : block_path) (p : peripheral)
  | InCluster (path : block_path) (c : cluster)
  | InRegister (path : register_path) (r : register)
  | InField (path : field_path) (f : field)
  | InEnum (path : enum_path) (e : enumerated_values).
Definition index := list entry.

Fixpoint lookup {A} (f : entry -> option A) (log : index) : option A :=
  match log with
  | [] => None
  | e :: log' => opt_or (lookup f log') (f e)
  end.
Definition ix_peripheral (ix : index) (q : block_path) : option peripheral :=
  lookup (fun e => match e with InPeripheral k x => if bp_eqb k q then Some x else None | _ => None end) ix.
Definition ix_cluster (ix : index) (q : block_path) : option cluster :=
  lookup (fun e => match e with InCluster k x => if bp_eqb k q then Some x else None | _ => None end) ix.
Definition ix_register (ix : index) (q : register_path) : option register :=
  lookup (fun e => match e with InRegister k x => if rg_eqb k q then Some x else None | _ => None end) ix.
Definition ix_field (ix : index) (q : field_path) : option field :=
  lookup (fun e => match e with InField k x => if fp_eqb k q then Some x else None | _ => None end) ix.
Definition ix_enum (ix : index) (q : enum_path) : option enumerated_values :=
  lookup (fun e => match e with InEnum k x => if ep_eqb k q then Some x else None | _ => None end) ix.

(** The names an element is entered under: those of its instances if it is an array
    (svd-rs/src/array.rs:63-76), then its own. Draining the names before using them
    changes nothing but the place of a panic. *)
Definition entry_names {A} (name : A -> string) (x : maybe_array A) : res (list string) :=
  let* ns := match x with Array i d => names d (name i) | Single _ => Ok [] end in
  Ok (ns ++ [name (info x)]).

(** expand.rs:314-333 *)
Definition field_at (fp : field_path) (f : field) : index :=
  flat_map (fun e => match evs_name e with Some n => [InEnum (new_enum fp n) e] | None => [] end)
           (f_enumerated_values (info f))
  ++ [InField fp f].
Definition add_field (path : register_path) (f : field) : res index :=
  let* ns := entry_names f_name f in
  Ok (flat_map (fun n => field_at (new_field path n) f) ns).
(** expand.rs:298-313 *)
Definition register_at (rg : register_path) (r : register) : res index :=
  let* fs := concatM (add_field rg) (r_fields_iter (info r)) in
  Ok (fs ++ [InRegister rg r]).
Definition add_register (path : block_path) (r : register) : res index :=
  let* ns := entry_names r_name r in
  concatM (fun n => register_at (new_register path n) r) ns.
(** expand.rs:276-297. As in Validate.v, the loops over registers() and clusters() are
    two passes over the children. *)
Fixpoint add_rc (path : block_path) (rc : register_cluster) : res index :=
  match rc with
  | RCRegister r => add_register path r
  | RCCluster c =>
      let* ns := entry_names c_name c in
      concatM
        (fun n =>
           let cpath := new_cluster path n in
           let* rs := concatM (fun x => match x with RCRegister _ => add_rc cpath x | _ => Ok [] end)
                              (c_children (info c)) in
           let* cs := concatM (fun x => match x with RCCluster _ => add_rc cpath x | _ => Ok [] end)
                              (c_children (info c)) in
           Ok (rs ++ cs ++ [InCluster cpath c])) ns
  end.
(** expand.rs:253-274 *)
Definition add_peripheral (p : peripheral) : res index :=
  let* ns := entry_names p_name p in
  concatM
    (fun n =>
       let path := bp_new n in
       let* rs := concatM (add_register path) (rc_registers (p_children (info p))) in
       let* cs := concatM (fun c => add_rc path (RCCluster c)) (rc_clusters (p_children (info p))) in
       Ok (rs ++ cs ++ [InPeripheral path p])) ns.
(** expand.rs:335-341 *)
Definition index_create (d : device) : res index := concatM add_peripheral (d_peripherals d).

(** ** Derivation *)

(** [derived_from.take()] and the like: the info with one field replaced. *)
Definition f_underive (f : field_info) : field_info :=
  {| f_name := f_name f; f_description := f_description f; f_bit_range := f_bit_range f;
     f_access := f_access f; f_mwv := f_mwv f; f_write_constraint := f_write_constraint f;
     f_read_action := f_read_action f; f_enumerated_values := f_enumerated_values f;
     f_derived_from := None |}.
Definition f_set_enums (f : field_info) (l : list enumerated_values) : field_info :=
  {| f_name := f_name f; f_description := f_description f; f_bit_range := f_bit_range f;
     f_access := f_access f; f_mwv := f_mwv f; f_write_constraint := f_write_constraint f;
     f_read_action := f_read_action f; f_enumerated_values := l;
     f_derived_from := f_derived_from f |}.
Definition evs_underive (e : enumerated_values) : enumerated_values :=
  {| evs_name := evs_name e; evs_usage := evs_usage e; evs_derived_from := None;
     evs_values := evs_values e |}.
Definition r_with (r : register_info) (name : string) (off : N) (fields : option (list field))
    (derived : option string) : register_info :=
  {| r_name := name; r_display_name := r_display_name r; r_description := r_description r;
     r_alternate_group := r_alternate_group r; r_alternate_register := r_alternate_register r;
     r_address_offset := off; r_properties := r_properties r; r_datatype := r_datatype r;
     r_mwv := r_mwv r; r_write_constraint := r_write_constraint r;
     r_read_action := r_read_action r; r_fields := fields; r_derived_from := derived |}.
Definition r_underive (r : register_info) : register_info :=
  r_with r (r_name r) (r_address_offset r) (r_fields r) None.
Definition r_set_fields (r : register_info) (fs : list field) : register_info :=
  r_with r (r_name r) (r_address_offset r) (Some fs) (r_derived_from r).
Definition r_move (r : register_info) (name : string) (off : N) : register_info :=
  r_with r name off (r_fields r) (r_derived_from r).
Definition c_with (c : cluster_info) (children : list register_cluster) (derived : option string)
  : cluster_info :=
  {| c_name := c_name c; c_description := c_description c;
     c_alternate_cluster := c_alternate_cluster c; c_header_struct_name := c_header_struct_name c;
     c_address_offset := c_address_offset c; c_default_properties := c_default_properties c;
     c_children := children; c_derived_from := derived |}.
Definition p_with (p : peripheral_info) (regs : option (list register_cluster))
    (derived : option string) : peripheral_info :=
  {| p_name := p_name p; p_display_name := p_display_name p; p_version := p_version p;
     p_description := p_description p; p_alternate_peripheral := p_alternate_peripheral p;
     p_group_name := p_group_name p; p_prepend_to_name := p_prepend_to_name p;
     p_append_to_name := p_append_to_name p; p_header_struct_name := p_header_struct_name p;
     p_base_address := p_base_address p; p_default_properties := p_default_properties p;
     p_address_block := p_address_block p; p_interrupt := p_interrupt p;
     p_registers := regs; p_derived_from := derived |}.

Section Expand.
  Variable m : mode.
  Variable ix : index.

  (** expand.rs:631-653. Here and below [fuel] bounds the depth of the recursion. *)
  Fixpoint derive_peripheral (fuel : nat) (p : peripheral) (dpath : string)
    : res (peripheral * option block_path) :=
    match fuel with
    | O => Panic OutOfFuel
    | S k =>
        if seqb dpath (p_name (info p)) then Err (ESelfDerived KPeripheral dpath)
        else
          let derpath := bp_new dpath in
          let* d := ok_or (ix_peripheral ix derpath) (ENotFound KPeripheral dpath) in
          let path := if is_none (p_registers (info p)) then Some derpath else None in
          let p' := peripheral_ma_derive p d in
          match p_derived_from (info d) with
          | Some dpath' => derive_peripheral k p' dpath'
          | None => Ok (p', path)
          end
    end.

  (** expand.rs:385-418 *)
  Fixpoint derive_cluster (fuel : nat) (c : cluster) (dpath : string) (path : block_path)
    : res (cluster * option block_path) :=
    match fuel with
    | O => Panic OutOfFuel
    | S k =>
        let* q := bp_parse_str dpath in
        let rdpath := opt_default path (fst q) in
        let dname := snd q in
        let cluster_path := new_cluster rdpath dname in
        if bp_eqb rdpath path && seqb dname (c_name (info c))
        then Err (ESelfDerived KCluster (bp_show cluster_path))
        else
          let* d := ok_or (ix_cluster ix cluster_path) (ENotFound KCluster dpath) in
          let cpath := if is_nil (c_children (info c)) then Some cluster_path else None in
          let c' := cluster_ma_derive c d in
          match c_derived_from (info d) with
          | Some dpath' => derive_cluster k c' dpath' rdpath
          | None => Ok (c', cpath)
          end
    end.

  (** expand.rs:420-453 *)
  Fixpoint derive_register (fuel : nat) (r : register) (dpath : string) (path : block_path)
    : res (register * option register_path) :=
    match fuel with
    | O => Panic OutOfFuel
    | S k =>
        let* q := bp_parse_str dpath in
        let rdpath := opt_default path (fst q) in
        let dname := snd q in
        let reg_path := new_register rdpath dname in
        if bp_eqb rdpath path && seqb dname (r_name (info r))
        then Err (ESelfDerived KRegister (rg_show reg_path))
        else
          let* d := ok_or (ix_register ix reg_path) (ENotFound KRegister dpath) in
          let rpath := if is_none (r_fields (info r)) then Some reg_path else None in
          let r' := register_ma_derive r d in
          match r_derived_from (info d) with
          | Some dpath' => derive_register k r' dpath' rdpath
          | None => Ok (r', rpath)
          end
    end.

  (** expand.rs:455-488 *)
  Fixpoint derive_field (fuel : nat) (f : field) (dpath : string) (rpath : register_path)
    : res (field * option field_path) :=
    match fuel with
    | O => Panic OutOfFuel
    | S k =>
        let* q := fp_parse_str dpath in
        let rdpath := opt_default rpath (fst q) in
        let dname := snd q in
        let path := new_field rdpath dname in
        if rg_eqb rdpath rpath && seqb dname (f_name (info f))
        then Err (ESelfDerived KField (fp_show path))
        else
          let* d := ok_or (ix_field ix path) (ENotFound KField dpath) in
          let fpath := if is_nil (f_enumerated_values (info f)) then Some path else None in
          let f' := field_ma_derive f d in
          match f_derived_from (info d) with
          | Some dpath' => derive_field k f' dpath' rdpath
          | None => Ok (f', fpath)
          end
    end.

  (** The loop of expand.rs:580-588 *)
  Fixpoint enum_in_fields (rdpath : register_path) (dname : string) (fs : list field)
    : option (enumerated_values * enum_path) :=
    match fs with
    | [] => None
    | f :: fs' =>
        let epath := EnumPath (new_field rdpath (f_name (info f))) dname in
        match ix_enum ix epath with
        | Some d => Some (d, epath)
        | None => enum_in_fields rdpath dname fs'
        end
    end.
  (** [Some(s) == o.as_deref()] *)
  Definition is_name (s : string) (o : option string) : bool :=
    match o with Some n => seqb s n | None => false end.
  (** expand.rs:565-629 *)
  Fixpoint derive_enum (fuel : nat) (ev : enumerated_values) (dpath : string) (fpath : field_path)
    : res (enumerated_values * enum_path) :=
    match fuel with
    | O => Panic OutOfFuel
    | S k =>
        if is_name dpath (evs_name ev) then Err (ESelfDerived KValues (fp_show fpath ++ "." ++ dpath)%string)
        else
          let* q := unwrap (pop (split "." dpath)) in
          let dname := snd q in
          let* found :=
            match pop (fst q) with
            | None =>
                Ok (match ix_register ix (fp_register fpath) with
                    | Some r => enum_in_fields (fp_register fpath) dname (r_fields_iter (info r))
                    | None => None
                    end)
            | Some (v, fdname) =>
                let* fdpath :=
                  if is_nil v then Ok (new_field (fp_register fpath) fdname)
                  else
                    let* rq := bp_parse_vec v in
                    let block := opt_default (rg_block (fp_register fpath)) (fst rq) in
                    Ok (FieldPath (new_register block (snd rq)) fdname) in
                if fp_eqb fdpath fpath && is_name dname (evs_name ev)
                then Err (ESelfDerived KValues (fp_show fpath ++ "." ++ dname)%string)
                else
                  let epath := EnumPath fdpath dname in
                  Ok (option_map (fun d => (d, epath)) (ix_enum ix epath))
            end in
          match found with
          | Some (d, epath) =>
              let ev' := evs_derive ev d in
              match evs_derived_from d with
              | Some dpath' => derive_enum k ev' dpath' (ep_field epath)
              | None => Ok (ev', epath)
              end
          | None => Err (ENotFound KValues dpath)
          end
    end.

  (** ** Expansion *)

  (** expand.rs:546-551 *)
  Definition expand_enum (fuel : nat) (fpath : field_path) (ev : enumerated_values)
    : res enumerated_values :=
    match evs_derived_from ev with
    | Some dpath => let* q := derive_enum fuel (evs_underive ev) dpath fpath in Ok (fst q)
    | None => Ok ev
    end.
  (** expand.rs:533-563; the result is what is pushed *)
  Definition expand_field (fuel : nat) (rpath : register_path) (f : field) : res (list field) :=
    let* q := match f_derived_from (info f) with
              | Some dpath => derive_field fuel (ma_map f_underive f) dpath rpath
              | None => Ok (f, None)
              end in
    let f := fst q in
    let fpath := opt_default (new_field rpath (f_name (info f))) (snd q) in
    let* evs := mapM (expand_enum fuel fpath) (f_enumerated_values (info f)) in
    match ma_map (fun i => f_set_enums i evs) f with
    | Single i => Ok [Single i]
    | Array i d => let* l := field_expand m i d in Ok (map Single l)
    end.

  (** expand.rs:503-531 *)
  Definition expand_register_array (fuel : nat) (path : block_path) (r : register)
    : res (list register_cluster) :=
    let* q := match r_derived_from (info r) with
              | Some dpath => derive_register fuel (ma_map r_underive r) dpath path
              | None => Ok (r, None)
              end in
    let r := fst q in
    let rpath := opt_default (new_register path (r_name (info r))) (snd q) in
    let* r := match r_fields (info r) with
              | Some fs => let* l := concatM (expand_field fuel rpath) fs in
                           Ok (ma_map (fun i => r_set_fields i l) r)
              | None => Ok r
              end in
    match r with
    | Single i => Ok [RCRegister (Single i)]
    | Array i d => let* l := register_expand m i d in Ok (map (fun i => RCRegister (Single i)) l)
    end.

  (** expand.rs:490-501 *)
  Definition expand_cluster (c : cluster_info) : res (list register_cluster) :=
    mapM (fun rc =>
            match rc with
            | RCCluster _ => Panic Unreachable
            | RCRegister r =>
                let* off := add32 m (r_address_offset (info r)) (c_address_offset c) in
                Ok (RCRegister (ma_map (fun i => r_move i (c_name c ++ "_" ++ r_name i)%string off) r))
            end) (c_children c).
  (** expand.rs:344-383 *)
  Fixpoint expand_rc (fuel : nat) (path : block_path) (rc : register_cluster)
    : res (list register_cluster) :=
    match fuel with
    | O => Panic OutOfFuel
    | S k =>
        match rc with
        | RCRegister r => expand_register_array k path r
        | RCCluster c =>
            let* q := match c_derived_from (info c) with
                      | Some dpath =>
                          derive_cluster k (ma_map (fun i => c_with i (c_children i) None) c) dpath path
                      | None => Ok (c, None)
                      end in
            let c := fst q in
            let cpath := opt_default (new_cluster path (c_name (info c))) (snd q) in
            let* kids := concatM (expand_rc k cpath) (c_children (info c)) in
            match ma_map (fun i => c_with i kids (c_derived_from i)) c with
            | Single i => expand_cluster i
            | Array i d =>
                concatM (fun n => let* x := cluster_instance m i d n in expand_cluster x)
                        (upto (de_dim d))
            end
        end
    end.

  (** The body of the loop of expand.rs:663-685 *)
  Definition expand_peripheral (fuel : nat) (p : peripheral) : res (list peripheral) :=
    let* q := match p_derived_from (info p) with
              | Some dpath =>
                  derive_peripheral fuel (ma_map (fun i => p_with i (p_registers i) None) p) dpath
              | None => Ok (p, None)
              end in
    let p := fst q in
    let path := opt_default (bp_new (p_name (info p))) (snd q) in
    let* p := match p_registers (info p) with
              | Some rs => let* l := concatM (expand_rc fuel path) rs in
                           Ok (ma_map (fun i => p_with i (Some l) (p_derived_from i)) p)
              | None => Ok p
              end in
    match p with
    | Single i => Ok [Single i]
    | Array i d => let* l := peripheral_expand m i d in Ok (map Single l)
    end.
End Expand.

Definition d_set_peripherals (d : device) (ps : list peripheral) : device :=
  {| d_vendor := d_vendor d; d_vendor_id := d_vendor_id d; d_name := d_name d;
     d_series := d_series d; d_version := d_version d; d_description := d_description d;
     d_license_text := d_license_text d; d_cpu := d_cpu d;
     d_header_system_filename := d_header_system_filename d;
     d_header_definitions_prefix := d_header_definitions_prefix d;
     d_address_unit_bits := d_address_unit_bits d; d_width := d_width d;
     d_default_properties := d_default_properties d; d_peripherals := ps;
     d_xmlns_xs := d_xmlns_xs d;
     d_no_namespace_schema_location := d_no_namespace_schema_location d;
     d_schema_version := d_schema_version d |}.
(** expand.rs:657-688 *)
Definition expand (m : mode) (fuel : nat) (d : device) : res device :=
  let* ix := index_create d in
  let* ps := concatM (expand_peripheral m ix fuel) (d_peripherals d) in
  Ok (d_set_peripherals d ps).

(** ** Properties *)

(** expand.rs:705-723 *)
Definition r_set_properties (r : register_info) (q : reg_props) : register_info :=
  {| r_name := r_name r; r_display_name := r_display_name r; r_description := r_description r;
     r_alternate_group := r_alternate_group r; r_alternate_register := r_alternate_register r;
     r_address_offset := r_address_offset r; r_properties := q; r_datatype := r_datatype r;
     r_mwv := r_mwv r; r_write_constraint := r_write_constraint r;
     r_read_action := r_read_action r; r_fields := r_fields r;
     r_derived_from := r_derived_from r |}.
Fixpoint expand_properties_rc (dflt : reg_props) (rc : register_cluster) : register_cluster :=
  match rc with
  | RCCluster c =>
      if is_some (c_derived_from (info c)) then rc
      else
        let dflt' := rp_derive (c_default_properties (info c)) dflt in
        let kids := map (expand_properties_rc dflt') (c_children (info c)) in
        RCCluster (ma_map (fun i => c_with i kids (c_derived_from i)) c)
  | RCRegister r =>
      if is_some (r_derived_from (info r)) then rc
      else RCRegister (ma_map (fun i => r_set_properties i (rp_derive (r_properties i) dflt)) r)
  end.
(** expand.rs:692-703 *)
Definition expand_properties_peripheral (dflt : reg_props) (p : peripheral) : peripheral :=
  if is_some (p_derived_from (info p)) then p
  else
    let dflt' := rp_derive (p_default_properties (info p)) dflt in
    ma_map (fun i => p_with i (option_map (map (expand_properties_rc dflt')) (p_registers i))
                              (p_derived_from i)) p.
Definition expand_properties (d : device) : device :=
  d_set_peripherals d (map (expand_properties_peripheral (d_default_properties d)) (d_peripherals d)).
