(** Vocabulary for C24: the bits of a field modified with the builder a chain of calls gives. *)
From Verif Require Import Base Types Setters SpecCalls.

Definition offset_asked (c : field_call) : option N := match c with with_field_bit_offset v => Some v | _ => None end.
Definition width_asked (c : field_call) : option N := match c with with_field_bit_width v => Some v | _ => None end.
Definition not_range (c : field_call) : Prop := match c with with_field_bit_range _ => False | _ => True end.
Definition not_offset (c : field_call) : Prop :=
  match c with with_field_bit_range _ | with_field_bit_offset _ => False | _ => True end.
Definition not_bits (c : field_call) : Prop :=
  match c with with_field_bit_range _ | with_field_bit_offset _ | with_field_bit_width _ => False | _ => True end.
(** The last of the values asked for, or else the one there is. *)
Definition last_or {A} (dflt : A) (q : field_call -> option A) (cs : list field_call) : A :=
  match latest q cs with Some v => v | None => dflt end.

(** [bits_changed x cs b]: the calls [cs] on a new builder change the bits [x] into [b]. *)
Inductive bits_changed (x : bit_range) : list field_call -> bit_range -> Prop :=
| changed_range : forall pre r post,                     (* after a range, the last offset and the last width *)
    (forall c, In c post -> not_range c) ->
    bits_changed x (pre ++ with_field_bit_range r :: post)
      (BitRange (last_or (br_offset r) offset_asked post) (last_or (br_width r) width_asked post) (br_type r))
| changed_width : forall cs,                             (* no range and no offset: the last width, if any *)
    (forall c, In c cs -> not_offset c) ->
    bits_changed x cs (BitRange (br_offset x) (last_or (br_width x) width_asked cs) (br_type x))
| changed_offset : forall pre o mid,                     (* one offset and no width after it *)
    (forall c, In c pre -> not_offset c) -> (forall c, In c mid -> not_bits c) ->
    bits_changed x (pre ++ with_field_bit_offset o :: mid) (BitRange o (last_or (br_width x) width_asked pre) (br_type x))
| changed_both : forall pre o mid w post,                (* an offset, then a width: a width before them wins *)
    (forall c, In c pre -> not_offset c) -> (forall c, In c mid -> not_bits c) -> (forall c, In c post -> not_range c) ->
    bits_changed x (pre ++ with_field_bit_offset o :: mid ++ with_field_bit_width w :: post)
      (BitRange (last_or o offset_asked post) (last_or (last_or w width_asked post) width_asked pre) BRT_OffsetWidth)
| changed_twice : forall pre o mid o' post,              (* two offsets: the first wins, and is the width as well *)
    (forall c, In c pre -> not_offset c) -> (forall c, In c mid -> not_bits c) -> (forall c, In c post -> not_range c) ->
    bits_changed x (pre ++ with_field_bit_offset o :: mid ++ with_field_bit_offset o' :: post)
      (BitRange o (last_or o width_asked post) BRT_OffsetWidth).
