(** What valid names and valid elements are, independently of the code. *)
From Coq Require Import List NArith String Ascii.
Import ListNotations.
From Verif Require Import Base Types SpecArray.
Open Scope N_scope.

(** ** Names *)
Definition letter_or_underscore (c : ascii) : Prop :=
  (nat_of_ascii c = 95 \/ 65 <= nat_of_ascii c <= 90 \/ 97 <= nat_of_ascii c <= 122)%nat.
Definition word_char (c : ascii) : Prop :=
  letter_or_underscore c \/ (48 <= nat_of_ascii c <= 57)%nat.
Definition all_chars (P : ascii -> Prop) (s : string) : Prop := Forall P (list_ascii_of_string s).

(** Any sequence of word characters, possibly empty or starting with a digit. *)
Definition plain_name (s : string) : Prop := all_chars word_char s.
(** An identifier in the sense of C. *)
Definition identifier (s : string) : Prop :=
  exists c t, s = String c t /\ letter_or_underscore c /\ all_chars word_char t.
(** A name that may carry one array placeholder. *)
Inductive arrayable_name : string -> Prop :=
  | an_plain s : identifier s -> arrayable_name s
  | an_only : arrayable_name "%s"
  | an_prefix t : identifier t -> arrayable_name ("%s" ++ t)%string
  | an_bracket t : identifier t -> arrayable_name (t ++ "[%s]")%string
  | an_inside a b : identifier a -> plain_name b -> arrayable_name (a ++ "%s" ++ b)%string.
(** Dot separated array-able names. *)
Definition derived_name (s : string) : Prop :=
  exists pieces, cut "." s pieces /\ Forall arrayable_name pieces.
Definition opt_all {A} (P : A -> Prop) (o : option A) : Prop :=
  match o with Some a => P a | None => True end.

(** ** Single elements *)
Definition checked (l : level) : Prop := l = Weak \/ l = Strict.

Definition props_ok (l : level) (p : reg_props) : Prop :=
  (checked l -> forall s v, rp_size p = Some s -> rp_reset_value p = Some v -> v < 2 ^ s) /\
  (l = Strict -> forall s k, rp_size p = Some s -> rp_reset_mask p = Some k -> k < 2 ^ s) /\
  (l = Strict -> forall v k, rp_reset_value p = Some v -> rp_reset_mask p = Some k ->
     forall i, N.testbit v i = true -> N.testbit k i = true).

Definition value_ok (l : level) (e : enumerated_value) : Prop :=
  (checked l -> ev_value e <> None \/ ev_is_default e = Some true) /\
  (l = Strict -> ~ (ev_value e <> None /\ ev_is_default e = Some true)) /\
  (l = Strict -> plain_name (ev_name e)).

Definition values_ok (l : level) (e : enumerated_values) : Prop :=
  (checked l -> evs_derived_from e = None -> evs_values e <> []) /\
  (l = Strict -> opt_all plain_name (evs_name e) /\ opt_all derived_name (evs_derived_from e)).

(** The usage a set of enumerated values declares; [None] when it is derived and the
    usage is only known from its source. *)
Definition declared_usage (e : enumerated_values) (u : option usage) : Prop :=
  match evs_derived_from e with
  | Some _ => u = None
  | None => u = Some (match evs_usage e with Some x => x | None => UReadWrite end)
  end.
Definition for_reading (e : enumerated_values) : Prop := declared_usage e None \/ declared_usage e (Some URead).
Definition for_writing (e : enumerated_values) : Prop := declared_usage e None \/ declared_usage e (Some UWrite).
Definition compatible_usages (es : list enumerated_values) : Prop :=
  match es with
  | [] | [_] => True
  | [a; b] => (for_reading a /\ for_writing b) \/ (for_reading b /\ for_writing a)
  | _ => False
  end.

Definition field_ok (l : level) (f : field_info) : Prop :=
  let w := br_width (f_bit_range f) in
  (checked l -> 1 <= w) /\
  (checked l -> w < 64 -> forall es e v, In es (f_enumerated_values f) -> In e (evs_values es) ->
     ev_value e = Some v -> v < 2 ^ w) /\
  (checked l -> w < 64 -> forall lo hi, f_write_constraint f = Some (WcRange lo hi) -> lo <= hi /\ hi < 2 ^ w) /\
  (l = Strict -> arrayable_name (f_name f) /\ opt_all derived_name (f_derived_from f) /\
     compatible_usages (f_enumerated_values f)).

Definition register_ok (l : level) (r : register_info) : Prop :=
  l = Strict -> arrayable_name (r_name r) /\ opt_all plain_name (r_alternate_group r) /\
    opt_all arrayable_name (r_alternate_register r) /\ opt_all derived_name (r_derived_from r) /\
    (r_derived_from r = None -> r_fields r <> Some []).

Definition cluster_ok (l : level) (c : cluster_info) : Prop :=
  l = Strict -> arrayable_name (c_name c) /\ opt_all derived_name (c_derived_from c) /\
    (c_derived_from c = None -> c_children c <> []).

Definition peripheral_ok (l : level) (p : peripheral_info) : Prop :=
  l = Strict -> arrayable_name (p_name p) /\ opt_all arrayable_name (p_derived_from p) /\
    (p_derived_from p = None -> p_registers p <> Some []).

Definition device_ok (l : level) (d : device) : Prop := checked l -> d_peripherals d <> [].

(** ** Whole trees *)
Inductive element :=
  | EProps (p : reg_props)
  | EValue (e : enumerated_value)
  | EValues (e : enumerated_values)
  | EField (f : field_info)
  | ERegister (r : register_info)
  | ECluster (c : cluster_info)
  | EPeripheral (p : peripheral_info)
  | EDevice (d : device).
Definition element_ok (l : level) (e : element) : Prop :=
  match e with
  | EProps p => props_ok l p
  | EValue e => value_ok l e
  | EValues e => values_ok l e
  | EField f => field_ok l f
  | ERegister r => register_ok l r
  | ECluster c => cluster_ok l c
  | EPeripheral p => peripheral_ok l p
  | EDevice d => device_ok l d
  end.

Inductive in_values (es : enumerated_values) : element -> Prop :=
  | iv_self : in_values es (EValues es)
  | iv_value e : In e (evs_values es) -> in_values es (EValue e).
Inductive in_field (f : field_info) : element -> Prop :=
  | if_self : in_field f (EField f)
  | if_values es x : In es (f_enumerated_values f) -> in_values es x -> in_field f x.
Inductive in_register (r : register_info) : element -> Prop :=
  | ir_self : in_register r (ERegister r)
  | ir_props : in_register r (EProps (r_properties r))
  | ir_field fs f x : r_fields r = Some fs -> In f fs -> in_field (info f) x -> in_register r x.
Inductive in_rc : register_cluster -> element -> Prop :=
  | ic_register r x : in_register (info r) x -> in_rc (RCRegister r) x
  | ic_self c : in_rc (RCCluster c) (ECluster (info c))
  | ic_props c : in_rc (RCCluster c) (EProps (c_default_properties (info c)))
  | ic_child c rc x : In rc (c_children (info c)) -> in_rc rc x -> in_rc (RCCluster c) x.
Inductive in_peripheral (p : peripheral_info) : element -> Prop :=
  | ip_self : in_peripheral p (EPeripheral p)
  | ip_props : in_peripheral p (EProps (p_default_properties p))
  | ip_child rcs rc x : p_registers p = Some rcs -> In rc rcs -> in_rc rc x -> in_peripheral p x.
Inductive in_device (d : device) : element -> Prop :=
  | id_self : in_device d (EDevice d)
  | id_props : in_device d (EProps (d_default_properties d))
  | id_peripheral p x : In p (d_peripherals d) -> in_peripheral (info p) x -> in_device d x.
