(** Vocabulary for C31-C40, independent of the expansion code. *)
From Verif Require Import Base Types SpecArray SpecDerive.

(** ** Nothing left to expand *)
Definition flat_field (f : field) : Prop :=
  exists i, f = Single i /\ f_derived_from i = None /\
    Forall (fun e => evs_derived_from e = None) (f_enumerated_values i).
Definition flat_register (r : register) : Prop :=
  exists i, r = Single i /\ r_derived_from i = None /\
    forall fs, r_fields i = Some fs -> Forall flat_field fs.
Definition flat_child (rc : register_cluster) : Prop := exists r, rc = RCRegister r /\ flat_register r.
Definition flat_peripheral (p : peripheral) : Prop :=
  exists i, p = Single i /\ p_derived_from i = None /\
    forall rs, p_registers i = Some rs -> Forall flat_child rs.
Definition flat_device (d : device) : Prop := Forall flat_peripheral (d_peripherals d).

(** ** Where the elements of a device are *)

(** What an element can be called: its own name, or the name of one of its instances. *)
Definition is_called {A} (name : A -> string) (x : maybe_array A) (n : string) : Prop :=
  n = name (info x) \/
  exists i d k idx, x = Array i d /\ k < de_dim d /\ index_text d k idx /\ name_of_instance d (name i) idx n.

Definition or_empty {A} (o : option (list A)) : list A := match o with Some l => l | None => [] end.

Section Places.
  Variable d : device.
  Definition peripheral_placed (path : list string) (p : peripheral) : Prop :=
    exists n, path = [n] /\ In p (d_peripherals d) /\ is_called p_name p n.
  (** The block with this path has these children. *)
  Inductive children_placed : list string -> list register_cluster -> Prop :=
    | cp_peripheral path p : peripheral_placed path p -> children_placed path (or_empty (p_registers (info p)))
    | cp_cluster path n kids c : children_placed path kids -> In (RCCluster c) kids -> is_called c_name c n ->
        children_placed (path ++ [n]) (c_children (info c)).
  Definition cluster_placed (path : list string) (c : cluster) : Prop :=
    exists block n kids, path = block ++ [n] /\ children_placed block kids /\ In (RCCluster c) kids /\ is_called c_name c n.
  Definition register_placed (path : list string) (r : register) : Prop :=
    exists block n kids, path = block ++ [n] /\ children_placed block kids /\ In (RCRegister r) kids /\ is_called r_name r n.
  Definition field_placed (path : list string) (f : field) : Prop :=
    exists reg n r, path = reg ++ [n] /\ register_placed reg r /\ In f (or_empty (r_fields (info r))) /\ is_called f_name f n.
  Definition values_placed (path : list string) (e : enumerated_values) : Prop :=
    exists fld n f, path = fld ++ [n] /\ field_placed fld f /\ In e (f_enumerated_values (info f)) /\ evs_name e = Some n.
End Places.

(** ** References *)

(** The element a derivedFrom text means in a context (the path of the parent): a
    sibling if it has one part, otherwise the element with that path. *)
Definition resolves (ctx : list string) (s : string) (path : list string) : Prop :=
  exists parts, cut "." s parts /\
    ((exists n, parts = [n] /\ path = ctx ++ [n]) \/ ((2 <= List.length parts)%nat /\ path = parts)).
(** The same for enumerated values, whose context is the path of the field: one part is
    the name of values in any field of the register. *)
Definition resolves_values (d : device) (ctx : list string) (s : string) (path : list string) : Prop :=
  exists parts, cut "." s parts /\
    let reg := removelast ctx in
    match parts with
    | [n] => exists r f, register_placed d reg r /\ In f (or_empty (r_fields (info r))) /\
                         path = reg ++ [f_name (info f); n]
    | [f; n] => path = reg ++ [f; n]
    | [r; f; n] => path = removelast reg ++ [r; f; n]
    | _ => path = parts
    end.

(** The elements met by following derivedFrom texts from a context to the end, with
    their paths. [step] is how one reference is found, [self] what counts as a reference
    to the element one started from. *)
Section Follow.
  Context {A : Type}.
  Variables (ref : A -> option string) (self : list string -> string -> list string -> Prop)
            (step : list string -> string -> list string -> A -> Prop).
  Inductive follows : list string -> option string -> list (list string * A) -> Prop :=
    | fo_end ctx : follows ctx None []
    | fo_step ctx s path x l : step ctx s path x -> ~ self ctx s path ->
        follows (removelast path) (ref x) l -> follows ctx (Some s) ((path, x) :: l).
End Follow.
Definition follows_peripherals (d : device) (name : string) :=
  follows (fun p => p_derived_from (info p)) (fun _ s _ => s = name)
          (fun _ s path p => path = [s] /\ peripheral_placed d path p).
Definition follows_clusters (d : device) (name : string) :=
  follows (fun c : cluster => c_derived_from (info c)) (fun ctx _ path => path = ctx ++ [name])
          (fun ctx s path c => resolves ctx s path /\ cluster_placed d path c).
Definition follows_registers (d : device) (name : string) :=
  follows (fun r => r_derived_from (info r)) (fun ctx _ path => path = ctx ++ [name])
          (fun ctx s path r => resolves ctx s path /\ register_placed d path r).
Definition follows_fields (d : device) (name : string) :=
  follows (fun f => f_derived_from (info f)) (fun ctx _ path => path = ctx ++ [name])
          (fun ctx s path f => resolves ctx s path /\ field_placed d path f).
Definition follows_values (d : device) (name : option string) :=
  follows evs_derived_from (fun ctx s path => exists n, name = Some n /\ (s = n \/ path = ctx ++ [n]))
          (fun ctx s path e => resolves_values d ctx s path /\ values_placed d path e).

(** ** Inheritance along a chain: the nearest element that has the attribute *)
Fixpoint nearest {A B} (get : A -> option B) (l : list A) (v : option B) : Prop :=
  match l with
  | [] => v = None
  | x :: l' => (exists b, get x = Some b /\ v = Some b) \/ (get x = None /\ nearest get l' v)
  end.
Fixpoint nearest_list {A B} (get : A -> list B) (l : list A) (v : list B) : Prop :=
  match l with
  | [] => v = []
  | x :: l' => (get x <> [] /\ v = get x) \/ (get x = [] /\ nearest_list get l' v)
  end.
Definition nearest_props {A} (get : A -> reg_props) (l : list A) (v : reg_props) : Prop :=
  nearest (fun x => rp_size (get x)) l (rp_size v) /\
  nearest (fun x => rp_access (get x)) l (rp_access v) /\
  nearest (fun x => rp_protection (get x)) l (rp_protection v) /\
  nearest (fun x => rp_reset_value (get x)) l (rp_reset_value v) /\
  nearest (fun x => rp_reset_mask (get x)) l (rp_reset_mask v).
(** The dimensions of the result: one's own; or, for a name with a placeholder, those of
    the nearest array, without its dimName; or none. *)
Definition nearest_dims {A} (name : A -> string) (x : maybe_array A) (chain : list (maybe_array A))
    (y : maybe_array A) : Prop :=
  match dims x with
  | Some e => dims y = Some e
  | None =>
      (occurs "%s" (name (info x)) ->
         exists o, nearest dims chain o /\
         match o, dims y with
         | Some e, Some e' => de_dim e' = de_dim e /\ de_increment e' = de_increment e /\
             de_index e' = de_index e /\ de_array_index e' = de_array_index e /\ de_name e' = None
         | None, None => True
         | _, _ => False
         end) /\
      (~ occurs "%s" (name (info x)) -> dims y = None)
  end.

(** [y] is [x] after inheriting from [chain]; derivedFrom itself is gone. *)
Definition values_from (x : enumerated_values) (chain : list enumerated_values) (y : enumerated_values) : Prop :=
  evs_name y = evs_name x /\ evs_derived_from y = None /\
  nearest evs_usage (x :: chain) (evs_usage y) /\ nearest_list evs_values (x :: chain) (evs_values y).
Definition field_from (x : field) (chain : list field) (y : field) : Prop :=
  let l := map info (x :: chain) in let a := info x in let z := info y in
  nearest_dims f_name x chain y /\
  f_name z = f_name a /\ f_bit_range z = f_bit_range a /\ f_derived_from z = None /\
  nearest f_description l (f_description z) /\ nearest f_access l (f_access z) /\
  nearest f_mwv l (f_mwv z) /\ nearest f_write_constraint l (f_write_constraint z) /\
  nearest f_read_action l (f_read_action z) /\
  nearest_list f_enumerated_values l (f_enumerated_values z).
Definition register_from (x : register) (chain : list register) (y : register) : Prop :=
  let l := map info (x :: chain) in let a := info x in let z := info y in
  nearest_dims r_name x chain y /\
  r_name z = r_name a /\ r_display_name z = r_display_name a /\
  r_alternate_group z = r_alternate_group a /\ r_alternate_register z = r_alternate_register a /\
  r_address_offset z = r_address_offset a /\ r_datatype z = r_datatype a /\ r_derived_from z = None /\
  nearest_props r_properties l (r_properties z) /\
  nearest r_description l (r_description z) /\ nearest r_mwv l (r_mwv z) /\
  nearest r_write_constraint l (r_write_constraint z) /\ nearest r_read_action l (r_read_action z) /\
  nearest r_fields l (r_fields z).
Definition cluster_from (x : cluster) (chain : list cluster) (y : cluster) : Prop :=
  let l := map info (x :: chain) in let a := info x in let z := info y in
  nearest_dims c_name x chain y /\
  c_name z = c_name a /\ c_description z = c_description a /\
  c_alternate_cluster z = c_alternate_cluster a /\ c_address_offset z = c_address_offset a /\
  c_derived_from z = None /\
  nearest_props c_default_properties l (c_default_properties z) /\
  nearest c_header_struct_name l (c_header_struct_name z) /\
  nearest_list c_children l (c_children z).
Definition peripheral_from (x : peripheral) (chain : list peripheral) (y : peripheral) : Prop :=
  let l := map info (x :: chain) in let a := info x in let z := info y in
  nearest_dims p_name x chain y /\
  p_name z = p_name a /\ p_display_name z = p_display_name a /\
  p_alternate_peripheral z = p_alternate_peripheral a /\ p_base_address z = p_base_address a /\
  p_derived_from z = None /\
  nearest_props p_default_properties l (p_default_properties z) /\
  nearest p_version l (p_version z) /\ nearest p_description l (p_description z) /\
  nearest p_group_name l (p_group_name z) /\ nearest p_prepend_to_name l (p_prepend_to_name z) /\
  nearest p_append_to_name l (p_append_to_name z) /\
  nearest p_header_struct_name l (p_header_struct_name z) /\
  nearest p_address_block l (p_address_block z) /\
  nearest_list p_interrupt l (p_interrupt z) /\ nearest p_registers l (p_registers z).

(** The path in which the content of a derived element is read: that of the last element
    of the chain if all before it are empty, else the element's own path. *)
Definition origin {A} (empty : A -> Prop) (x : A) (chain : list (list string * A)) (own path : list string) : Prop :=
  (exists before y, chain = before ++ [(path, y)] /\ empty x /\ Forall (fun q => empty (snd q)) before) \/
  (path = own /\ (chain = [] \/ exists before last, chain = before ++ [last] /\
                    ~ (empty x /\ Forall (fun q => empty (snd q)) before))).

(** ** Instances *)

(** [x] is the sum [a] in machine integers: wrapped in release mode, exact in debug mode. *)
Definition sum_is (m : mode) (bound a x : N) : Prop := x = a mod bound /\ (m = Debug -> x = a).
Definition template_text (idx : string) (t u : option string) : Prop :=
  match t with
  | None => u = None
  | Some s => exists r, u = Some r /\ filled idx s r
  end.
Section Instances.
  Variable m : mode.
  (** [y] is instance [k] of the array of [x] with dimensions [d]. *)
  Definition field_instance_of (x : field_info) (d : dim_element) (k : N) (y : field_info) : Prop :=
    exists idx, index_text d k idx /\ name_of_instance d (f_name x) idx (f_name y) /\
    description_of_instance d (f_description x) idx (f_description y) /\
    sum_is m (2 ^ 32) (br_offset (f_bit_range x) + k * de_increment d) (br_offset (f_bit_range y)) /\
    br_width (f_bit_range y) = br_width (f_bit_range x) /\ br_type (f_bit_range y) = BRT_OffsetWidth /\
    f_access y = f_access x /\ f_mwv y = f_mwv x /\ f_write_constraint y = f_write_constraint x /\
    f_read_action y = f_read_action x /\ f_enumerated_values y = f_enumerated_values x /\
    f_derived_from y = f_derived_from x.
  Definition register_instance_of (x : register_info) (d : dim_element) (k : N) (y : register_info) : Prop :=
    exists idx, index_text d k idx /\ name_of_instance d (r_name x) idx (r_name y) /\
    description_of_instance d (r_description x) idx (r_description y) /\
    template_text idx (r_display_name x) (r_display_name y) /\
    sum_is m (2 ^ 32) (r_address_offset x + k * de_increment d) (r_address_offset y) /\
    r_alternate_group y = r_alternate_group x /\ r_alternate_register y = r_alternate_register x /\
    r_properties y = r_properties x /\ r_datatype y = r_datatype x /\ r_mwv y = r_mwv x /\
    r_write_constraint y = r_write_constraint x /\ r_read_action y = r_read_action x /\
    r_fields y = r_fields x /\ r_derived_from y = r_derived_from x.
  Definition cluster_instance_of (x : cluster_info) (d : dim_element) (k : N) (y : cluster_info) : Prop :=
    exists idx, index_text d k idx /\ name_of_instance d (c_name x) idx (c_name y) /\
    sum_is m (2 ^ 32) (c_address_offset x + k * de_increment d) (c_address_offset y).
  Definition peripheral_instance_of (x : peripheral_info) (d : dim_element) (k : N) (y : peripheral_info) : Prop :=
    exists idx, index_text d k idx /\ name_of_instance d (p_name x) idx (p_name y) /\
    description_of_instance d (p_description x) idx (p_description y) /\
    template_text idx (p_display_name x) (p_display_name y) /\
    sum_is m (2 ^ 64) (p_base_address x + k * de_increment d) (p_base_address y) /\
    p_version y = p_version x /\ p_alternate_peripheral y = p_alternate_peripheral x /\
    p_group_name y = p_group_name x /\ p_prepend_to_name y = p_prepend_to_name x /\
    p_append_to_name y = p_append_to_name x /\ p_header_struct_name y = p_header_struct_name x /\
    p_default_properties y = p_default_properties x /\ p_address_block y = p_address_block x /\
    p_interrupt y = p_interrupt x /\ p_registers y = p_registers x /\ p_derived_from y = p_derived_from x.
End Instances.
(** All instances, in order. *)
Definition instances_of {A} (one : A -> dim_element -> N -> A -> Prop) (x : maybe_array A) (l : list A) : Prop :=
  match x with
  | Single i => l = [i]
  | Array i d => len_N l = de_dim d /\ forall k, k < de_dim d -> exists y, nth_N l k = Some y /\ one i d k y
  end.

(** ** The meaning of expansion *)
Definition field_with (i : field_info) (evs : list enumerated_values) : field_info :=
  {| f_name := f_name i; f_description := f_description i; f_bit_range := f_bit_range i;
     f_access := f_access i; f_mwv := f_mwv i; f_write_constraint := f_write_constraint i;
     f_read_action := f_read_action i; f_enumerated_values := evs; f_derived_from := f_derived_from i |}.
Definition register_with (i : register_info) (fs : option (list field)) : register_info :=
  {| r_name := r_name i; r_display_name := r_display_name i; r_description := r_description i;
     r_alternate_group := r_alternate_group i; r_alternate_register := r_alternate_register i;
     r_address_offset := r_address_offset i; r_properties := r_properties i; r_datatype := r_datatype i;
     r_mwv := r_mwv i; r_write_constraint := r_write_constraint i;
     r_read_action := r_read_action i; r_fields := fs; r_derived_from := r_derived_from i |}.
Definition peripheral_with (i : peripheral_info) (rs : option (list register_cluster)) : peripheral_info :=
  {| p_name := p_name i; p_display_name := p_display_name i; p_version := p_version i;
     p_description := p_description i; p_alternate_peripheral := p_alternate_peripheral i;
     p_group_name := p_group_name i; p_prepend_to_name := p_prepend_to_name i;
     p_append_to_name := p_append_to_name i; p_header_struct_name := p_header_struct_name i;
     p_base_address := p_base_address i; p_default_properties := p_default_properties i;
     p_address_block := p_address_block i; p_interrupt := p_interrupt i;
     p_registers := rs; p_derived_from := p_derived_from i |}.
Definition mapped {A} (f : A -> A) (x : maybe_array A) : maybe_array A :=
  match x with Single i => Single (f i) | Array i d => Array (f i) d end.
(** [y] is register [x] of a cluster named [n] at [off], seen from the cluster's parent. *)
Definition hoisted (m : mode) (n : string) (off : N) (x y : register_info) : Prop :=
  r_name y = (n ++ "_" ++ r_name x)%string /\
  sum_is m (2 ^ 32) (r_address_offset x + off) (r_address_offset y) /\
  r_display_name y = r_display_name x /\ r_description y = r_description x /\
  r_alternate_group y = r_alternate_group x /\ r_alternate_register y = r_alternate_register x /\
  r_properties y = r_properties x /\ r_datatype y = r_datatype x /\ r_mwv y = r_mwv x /\
  r_write_constraint y = r_write_constraint x /\ r_read_action y = r_read_action x /\
  r_fields y = r_fields x /\ r_derived_from y = r_derived_from x.

Definition paths {A} (chain : list (list string * A)) : list A := map snd chain.
Section Meaning.
  Variables (m : mode) (d : device).
  Definition values_expanded (ctx : list string) (e e' : enumerated_values) : Prop :=
    exists chain, follows_values d (evs_name e) ctx (evs_derived_from e) chain /\
      values_from e (paths chain) e'.
  Definition field_expanded (ctx : list string) (f : field) (out : list field_info) : Prop :=
    exists chain f1 ctx' evs,
      follows_fields d (f_name (info f)) ctx (f_derived_from (info f)) chain /\
      field_from f (paths chain) f1 /\
      origin (fun x => f_enumerated_values (info x) = []) f chain (ctx ++ [f_name (info f)]) ctx' /\
      Forall2 (values_expanded ctx') (f_enumerated_values (info f1)) evs /\
      instances_of (field_instance_of m) (mapped (fun i => field_with i evs) f1) out.
  Definition register_expanded (ctx : list string) (r : register) (out : list register_info) : Prop :=
    exists chain r1 ctx' fs,
      follows_registers d (r_name (info r)) ctx (r_derived_from (info r)) chain /\
      register_from r (paths chain) r1 /\
      origin (fun x => r_fields (info x) = None) r chain (ctx ++ [r_name (info r)]) ctx' /\
      match r_fields (info r1) with
      | None => fs = None
      | Some l => exists groups, Forall2 (field_expanded ctx') l groups /\
                    fs = Some (map Single (List.concat groups))
      end /\
      instances_of (register_instance_of m) (mapped (fun i => register_with i fs) r1) out.
  Inductive child_expanded : list string -> register_cluster -> list register_info -> Prop :=
    | ce_register ctx r out : register_expanded ctx r out -> child_expanded ctx (RCRegister r) out
    | ce_cluster ctx c chain c1 ctx' groups cs outs :
        follows_clusters d (c_name (info c)) ctx (c_derived_from (info c)) chain ->
        cluster_from c (paths chain) c1 ->
        origin (fun x : cluster => c_children (info x) = []) c chain (ctx ++ [c_name (info c)]) ctx' ->
        Forall2 (child_expanded ctx') (c_children (info c1)) groups ->
        instances_of (cluster_instance_of m) c1 cs ->
        Forall2 (fun k out => Forall2 (hoisted m (c_name k) (c_address_offset k)) (List.concat groups) out) cs outs ->
        child_expanded ctx (RCCluster c) (List.concat outs).
  Definition peripheral_expanded (p : peripheral) (out : list peripheral_info) : Prop :=
    exists chain p1 ctx' rs,
      follows_peripherals d (p_name (info p)) [] (p_derived_from (info p)) chain /\
      peripheral_from p (paths chain) p1 /\
      origin (fun x => p_registers (info x) = None) p chain [p_name (info p)] ctx' /\
      match p_registers (info p1) with
      | None => rs = None
      | Some l => exists groups, Forall2 (child_expanded ctx') l groups /\
                    rs = Some (map (fun i => RCRegister (Single i)) (List.concat groups))
      end /\
      instances_of (peripheral_instance_of m) (mapped (fun i => peripheral_with i rs) p1) out.
End Meaning.

(** Two devices that agree on everything but the peripherals. *)
Definition same_but_peripherals (d d' : device) : Prop :=
  d_vendor d' = d_vendor d /\ d_vendor_id d' = d_vendor_id d /\ d_name d' = d_name d /\
  d_series d' = d_series d /\ d_version d' = d_version d /\ d_description d' = d_description d /\
  d_license_text d' = d_license_text d /\ d_cpu d' = d_cpu d /\
  d_header_system_filename d' = d_header_system_filename d /\
  d_header_definitions_prefix d' = d_header_definitions_prefix d /\
  d_address_unit_bits d' = d_address_unit_bits d /\ d_width d' = d_width d /\
  d_default_properties d' = d_default_properties d /\ d_xmlns_xs d' = d_xmlns_xs d /\
  d_no_namespace_schema_location d' = d_no_namespace_schema_location d /\
  d_schema_version d' = d_schema_version d.
Definition device_expanded (m : mode) (d d' : device) : Prop :=
  same_but_peripherals d d' /\
  exists groups, Forall2 (peripheral_expanded m d) (d_peripherals d) groups /\
    d_peripherals d' = map Single (List.concat groups).
