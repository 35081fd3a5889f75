(** Bit ranges, dim elements, array instances, masks, iterators and lookups. *)
From Verif Require Import Base Types.

(** ** BitRange *)

(** svd-rs/src/bitrange.rs:35-41: lsb, msb *)
Definition br_lsb (b : bit_range) : N := br_offset b.
Definition br_msb (m : mode) (b : bit_range) : res N :=
  let* x := add32 m (br_offset b) (br_width b) in sub32 m x 1.
(** svd-rs/src/bitrange.rs:43-45 *)
Definition br_text (m : mode) (b : bit_range) : res string :=
  let* h := br_msb m b in
  Ok ("[" ++ to_string h ++ ":" ++ to_string (br_lsb b) ++ "]")%string.
(** svd-rs/src/bitrange.rs:47-53 *)
Definition br_from_offset_width (offset width : N) : bit_range :=
  {| br_offset := offset; br_width := width; br_type := BRT_OffsetWidth |}.
(** svd-rs/src/bitrange.rs:56-62 *)
Definition br_from_msb_lsb (m : mode) (msb lsb : N) : res bit_range :=
  let* x := sub32 m msb lsb in
  let* w := add32 m x 1 in
  Ok {| br_offset := lsb; br_width := w; br_type := BRT_MsbLsb |}.
(** svd-rs/src/bitrange.rs:64-76. The slice [1..len-1] is dropping the first and
    the last byte; [parts.next()?] on split never fails the first time. *)
Definition br_from_bit_range (m : mode) (text : string) : res (option bit_range) :=
  match text with
  | String "[" rest =>
      match last_char text with
      | Some "]"%char =>
          match split ":" (drop_last rest) with
          | a :: b :: _ =>
              match parse_dec pow32 a with
              | Some msb =>
                  match parse_dec pow32 b with
                  | Some lsb =>
                      let* x := sub32 m msb lsb in
                      let* w := add32 m x 1 in
                      Ok (Some {| br_offset := lsb; br_width := w; br_type := BRT_BitRange |})
                  | None => Ok None
                  end
              | None => Ok None
              end
          | _ => Ok None
          end
      | _ => Ok None
      end
  | _ => Ok None
  end.

(** ** DimElement *)

(** u8::is_ascii_lowercase, is_ascii_uppercase *)
Definition is_lower (c : ascii) : bool := (97 <=? byte c) && (byte c <=? 122).
Definition is_upper (c : ascii) : bool := (65 <=? byte c) && (byte c <=? 90).
Definition str1 (c : ascii) : string := String c EmptyString.

(** svd-rs/src/dimelement.rs:144-166 *)
Definition parse_indexes (text : string) : option (list string) :=
  let o :=
    if contains_char "-" text then
      match split_once "-" text with
      | None => None
      | Some (start, end_) =>
          match parse_dec pow32 start, parse_dec pow32 end_ with
          | Some a, Some b => Some (map to_string (range_incl a b))
          | _, _ =>
              match start, end_ with
              | String a EmptyString, String b EmptyString =>
                  if (is_lower a && is_lower b) || (is_upper a && is_upper b)
                  then Some (map (fun n => str1 (chr n)) (range_incl (byte a) (byte b)))
                  else None
              | _, _ => None
              end
          end
      end
    else Some (split "," text) in
  match o with Some v => if is_nil v then None else Some v | None => None end.

(** Indexes::next at position i: svd-rs/src/dimelement.rs:240-254 *)
Definition index_at (d : dim_element) (i : N) : res string :=
  match de_index d with
  | Some l => index_N l i
  | None => Ok (to_string i)
  end.
(** DimElement::indexes(), drained: svd-rs/src/dimelement.rs:224-230 *)
Definition indexes (d : dim_element) : res (list string) := mapM (index_at d) (upto (de_dim d)).

(** The first loop of indexes_as_range: stops with None at the first index that
    is not a canonical decimal number. *)
Fixpoint canonical_loop (d : dim_element) (is : list N) : res (option (list N)) :=
  match is with
  | [] => Ok (Some [])
  | i :: is' =>
      let* idx := index_at d i in
      match parse_dec pow32 idx with
      | None => Ok None
      | Some val =>
          if negb (seqb (to_string val) idx) then Ok None
          else
            let* r := canonical_loop d is' in
            match r with Some l => Ok (Some (val :: l)) | None => Ok None end
      end
  end.
(** Iterator::min, Iterator::max *)
Definition list_min (l : list N) : option N :=
  match l with [] => None | a :: l' => Some (fold_left N.min l' a) end.
Definition list_max (l : list N) : option N :=
  match l with [] => None | a :: l' => Some (fold_left N.max l' a) end.
(** [for (i, r) in l.zip(min..=max) { if i != r { return None } }] *)
Fixpoint zip_eq (l : list N) (r max : N) : bool :=
  match l with
  | [] => true
  | i :: l' => if r <=? max then (i =? r) && zip_eq l' (r + 1) max else true
  end.
(** svd-rs/src/dimelement.rs:168-190; the result is the pair of range ends. *)
Definition indexes_as_range (m : mode) (d : dim_element) : res (option (N * N)) :=
  let* c := canonical_loop d (upto (de_dim d)) in
  match c with
  | None => Ok None
  | Some integers =>
      match list_min integers, list_max integers with
      | Some min, Some max =>
          let* x := sub32 m max min in
          let* n := add32 m x 1 in
          if negb (n =? de_dim d) then Ok None
          else if zip_eq integers min max then Ok (Some (min, max)) else Ok None
      | _, _ => Ok None
      end
  end.

(** ** Array instances *)

(** [s.replace("[%s]", idx).replace("%s", idx)]: svd-rs/src/array.rs:74,93 *)
Definition subst_index (idx s : string) : string := replace "%s" idx (replace "[%s]" idx s).

(** The dimArrayIndex value whose decimal text is the index: array.rs:66-72, 85-91 *)
Definition dai_find (d : dim_element) (idx : string) : option enumerated_value :=
  match de_array_index d with
  | Some dai =>
      find_first (fun e => match ev_value e with Some v => seqb (to_string v) idx | None => false end)
                 (dai_values dai)
  | None => None
  end.
(** One item of names(): svd-rs/src/array.rs:63-76 *)
Definition instance_name (d : dim_element) (name idx : string) : string :=
  match dai_find d idx with
  | Some e => ev_name e
  | None => subst_index idx name
  end.
(** One item of descriptions(): svd-rs/src/array.rs:79-95 *)
Definition instance_description (d : dim_element) (desc : option string) (idx : string) : option string :=
  opt_or (match dai_find d idx with Some e => ev_description e | None => None end)
         (option_map (subst_index idx) desc).
(** names(), descriptions() drained *)
Definition names (d : dim_element) (name : string) : res (list string) :=
  mapM (fun i => let* idx := index_at d i in Ok (instance_name d name idx)) (upto (de_dim d)).
Definition descriptions (d : dim_element) (desc : option string) : res (list (option string)) :=
  mapM (fun i => let* idx := index_at d i in Ok (instance_description d desc idx)) (upto (de_dim d)).

(** field::bit_offsets at i: svd-rs/src/field.rs:88-90; register and cluster
    address_offsets: register.rs:115-120, cluster.rs:77-82 *)
Definition offset_at (m : mode) (base : N) (d : dim_element) (i : N) : res N :=
  let* x := mul32 m i (de_increment d) in add32 m base x.
(** peripheral::base_addresses at i: svd-rs/src/peripheral.rs:129-134 (u64) *)
Definition base_at (m : mode) (base : N) (d : dim_element) (i : N) : res N :=
  let* x := mul64 m i (de_increment d) in add64 m base x.

(** Item i of field::expand: svd-rs/src/field.rs:93-107. The zipped iterators are
    advanced in the order written: name, description, offset. *)
Definition field_instance (m : mode) (f : field_info) (d : dim_element) (i : N) : res field_info :=
  let* idx := index_at d i in
  let* off := offset_at m (br_offset (f_bit_range f)) d i in
  Ok {| f_name := instance_name d (f_name f) idx;
        f_description := instance_description d (f_description f) idx;
        f_bit_range := br_from_offset_width off (br_width (f_bit_range f));
        f_access := f_access f;
        f_mwv := f_mwv f;
        f_write_constraint := f_write_constraint f;
        f_read_action := f_read_action f;
        f_enumerated_values := f_enumerated_values f;
        f_derived_from := f_derived_from f |}.
Definition field_expand (m : mode) (f : field_info) (d : dim_element) : res (list field_info) :=
  mapM (field_instance m f d) (upto (de_dim d)).

(** Item i of register::expand: svd-rs/src/register.rs:123-141 *)
Definition register_instance (m : mode) (r : register_info) (d : dim_element) (i : N) : res register_info :=
  let* idx := index_at d i in
  let* off := offset_at m (r_address_offset r) d i in
  Ok {| r_name := instance_name d (r_name r) idx;
        r_display_name := option_map (subst_index idx) (r_display_name r);
        r_description := instance_description d (r_description r) idx;
        r_alternate_group := r_alternate_group r;
        r_alternate_register := r_alternate_register r;
        r_address_offset := off;
        r_properties := r_properties r;
        r_datatype := r_datatype r;
        r_mwv := r_mwv r;
        r_write_constraint := r_write_constraint r;
        r_read_action := r_read_action r;
        r_fields := r_fields r;
        r_derived_from := r_derived_from r |}.
Definition register_expand (m : mode) (r : register_info) (d : dim_element) : res (list register_info) :=
  mapM (register_instance m r d) (upto (de_dim d)).

(** Item i of cluster::expand: svd-rs/src/cluster.rs:85-99 *)
Definition cluster_instance (m : mode) (c : cluster_info) (d : dim_element) (i : N) : res cluster_info :=
  let* idx := index_at d i in
  let* off := offset_at m (c_address_offset c) d i in
  Ok {| c_name := instance_name d (c_name c) idx;
        c_description := instance_description d (c_description c) idx;
        c_alternate_cluster := c_alternate_cluster c;
        c_header_struct_name := c_header_struct_name c;
        c_address_offset := off;
        c_default_properties := c_default_properties c;
        c_children := c_children c;
        c_derived_from := c_derived_from c |}.
Definition cluster_expand (m : mode) (c : cluster_info) (d : dim_element) : res (list cluster_info) :=
  mapM (cluster_instance m c d) (upto (de_dim d)).

(** Item i of peripheral::expand: svd-rs/src/peripheral.rs:137-155 *)
Definition peripheral_instance (m : mode) (p : peripheral_info) (d : dim_element) (i : N)
  : res peripheral_info :=
  let* idx := index_at d i in
  let* addr := base_at m (p_base_address p) d i in
  Ok {| p_name := instance_name d (p_name p) idx;
        p_display_name := option_map (subst_index idx) (p_display_name p);
        p_version := p_version p;
        p_description := instance_description d (p_description p) idx;
        p_alternate_peripheral := p_alternate_peripheral p;
        p_group_name := p_group_name p;
        p_prepend_to_name := p_prepend_to_name p;
        p_append_to_name := p_append_to_name p;
        p_header_struct_name := p_header_struct_name p;
        p_base_address := addr;
        p_default_properties := p_default_properties p;
        p_address_block := p_address_block p;
        p_interrupt := p_interrupt p;
        p_registers := p_registers p;
        p_derived_from := p_derived_from p |}.
Definition peripheral_expand (m : mode) (p : peripheral_info) (d : dim_element)
  : res (list peripheral_info) :=
  mapM (peripheral_instance m p d) (upto (de_dim d)).

(** ** Bit masks *)

(** svd-rs/src/field.rs:379-382 *)
Definition field_info_bitmask (m : mode) (f : field_info) : res N :=
  let* s := sub32 m 64 (br_width (f_bit_range f)) in
  let* a := shr64 m (pow64 - 1) s in
  shl64 m a (br_offset (f_bit_range f)).
(** The loop of Field::bitmask: svd-rs/src/field.rs:417-429 *)
Fixpoint bitmask_loop (m : mode) (mask incr : N) (is : list N) (bits : N) : res N :=
  match is with
  | [] => Ok bits
  | i :: is' =>
      let* s := mul32 m i incr in
      let* x := shl64 m mask s in
      bitmask_loop m mask incr is' (N.lor bits x)
  end.
Definition field_bitmask (m : mode) (f : field) : res N :=
  match f with
  | Single f => field_info_bitmask m f
  | Array f d =>
      let* mask := field_info_bitmask m f in
      bitmask_loop m mask (de_increment d) (upto (de_dim d)) 0
  end.
(** svd-rs/src/register.rs:425-427 *)
Fixpoint register_bitmask_loop (m : mode) (fs : list field) (acc : N) : res N :=
  match fs with
  | [] => Ok acc
  | f :: fs' => let* x := field_bitmask m f in register_bitmask_loop m fs' (N.lor acc x)
  end.
Definition register_bitmask (m : mode) (r : register_info) : res N :=
  register_bitmask_loop m (r_fields_iter r) 0.

(** ** Iteration over all registers *)

(** AllRegistersIter: svd-rs/src/registercluster.rs:130-147. The Vec is the list
    [rem] with its last element first. [push] appends to the Vec. One call of
    next() runs the while loop; [fuel] bounds its iterations and None means it was
    too small. *)
Definition push {A} (rem : list A) (x : A) : list A := x :: rem.
Fixpoint all_next (fuel : nat) (rem : list register_cluster)
  : option (option register * list register_cluster) :=
  match fuel with
  | O => None
  | S fuel' =>
      match rem with
      | [] => Some (None, [])
      | RCRegister r :: rem' => Some (Some r, rem')
      | RCCluster c :: rem' => all_next fuel' (fold_left push (rev (c_children (info c))) rem')
      end
  end.
(** Draining the iterator; [n] bounds the number of calls. *)
Fixpoint all_drain (n fuel : nat) (rem : list register_cluster) : option (list register) :=
  match n with
  | O => None
  | S n' =>
      match all_next fuel rem with
      | None => None
      | Some (None, _) => Some []
      | Some (Some r, rem') =>
          match all_drain n' fuel rem' with Some l => Some (r :: l) | None => None end
      end
  end.
(** ClusterInfo::all_registers, PeripheralInfo::all_registers: cluster.rs:284-288,
    peripheral.rs:467-474 ([iter().rev().collect()], so the first child is last in
    the Vec and first here). *)
Definition all_registers_init (children : list register_cluster) : list register_cluster :=
  fold_left push (rev children) [].

(** ** Lookups by name: find on an iterator *)

(** svd-rs/src/register.rs:415-417 *)
Definition get_field (r : register_info) (name : string) : option field :=
  find_first (fun f => seqb (f_name (info f)) name) (r_fields_iter r).
(** svd-rs/src/cluster.rs:332-344, peripheral.rs:493-505 *)
Definition get_register (children : list register_cluster) (name : string) : option register :=
  find_first (fun r => seqb (r_name (info r)) name) (rc_registers children).
Definition get_cluster (children : list register_cluster) (name : string) : option cluster :=
  find_first (fun c => seqb (c_name (info c)) name) (rc_clusters children).
(** svd-rs/src/peripheral.rs:508-510 *)
Definition get_interrupt (p : peripheral_info) (name : string) : option interrupt :=
  find_first (fun i => seqb (it_name i) name) (p_interrupt p).
(** svd-rs/src/device.rs:399-401 *)
Definition get_peripheral (d : device) (name : string) : option peripheral :=
  find_first (fun p => seqb (p_name (info p)) name) (d_peripherals d).
(** svd-rs/src/enumeratedvalues.rs:178-180, 102-104 *)
Definition get_value (e : enumerated_values) (name : string) : option enumerated_value :=
  find_first (fun v => seqb (ev_name v) name) (evs_values e).
Definition default_value (e : enumerated_values) : option enumerated_value :=
  find_first (fun v => match ev_is_default v with Some true => true | _ => false end) (evs_values e).
(** svd-rs/src/field.rs:385-393 *)
Definition usage_eqb (a b : usage) : bool :=
  match a, b with
  | URead, URead | UWrite, UWrite | UReadWrite, UReadWrite => true
  | _, _ => false
  end.
Definition get_enumerated_values (f : field_info) (u : usage) : option enumerated_values :=
  match f_enumerated_values f with
  | [_] | [_; _] =>
      find_first (fun e => match (if is_some (evs_derived_from e) then None
                                  else Some (opt_default UReadWrite (evs_usage e))) with
                           | Some v => usage_eqb v u
                           | None => false
                           end) (f_enumerated_values f)
  | _ => None
  end.
