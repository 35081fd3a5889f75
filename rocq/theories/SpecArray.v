(** What index texts, placeholders, array instances and bit coverage mean,
    independently of the code's helper functions. *)
From Coq Require Import List NArith String Ascii.
Import ListNotations.
From Verif Require Import Types SpecNum.
Open Scope N_scope.

(** [s] is the usual decimal numeral of [n]: digits only, no leading zero. *)
Definition numeral (n : N) (s : string) : Prop :=
  digits_with (digit 10) 10 s n /\ (s = "0"%string \/ forall t, s <> String "0" t).

(** The letters between two letters, as one character texts. *)
Definition letter_at (base : ascii) (i : nat) : string :=
  String (ascii_of_nat (nat_of_ascii base + i)) EmptyString.
Definition same_case_letters (a b : ascii) : Prop :=
  (97 <= nat_of_ascii a <= 122 /\ 97 <= nat_of_ascii b <= 122)%nat \/
  (65 <= nat_of_ascii a <= 90 /\ 65 <= nat_of_ascii b <= 90)%nat.

(** No character [c] in [s]. *)
Definition free_of (c : ascii) (s : string) : Prop := ~ In c (list_ascii_of_string s).

(** [pieces] is what one gets by cutting [s] at every [c]. *)
Fixpoint glue (c : ascii) (pieces : list string) : string :=
  match pieces with
  | [] => EmptyString
  | [p] => p
  | p :: ps => (p ++ String c (glue c ps))%string
  end.
Definition cut (c : ascii) (s : string) (pieces : list string) : Prop :=
  pieces <> [] /\ s = glue c pieces /\ Forall (free_of c) pieces.

(** The dimIndex grammar: which list a text denotes. *)
Inductive index_list (text : string) (l : list string) : Prop :=
  | il_numbers A B a b :
      text = (A ++ "-" ++ B)%string ->
      signed (digits_with (digit 10) 10) A a -> signed (digits_with (digit 10) 10) B b ->
      a < 2 ^ 32 -> b < 2 ^ 32 -> a <= b ->
      N.of_nat (List.length l) = b - a + 1 ->
      (forall i s, nth_error l i = Some s -> numeral (a + N.of_nat i) s) ->
      index_list text l
  | il_letters a b :
      text = String a (String "-" (String b EmptyString)) ->
      same_case_letters a b -> (nat_of_ascii a <= nat_of_ascii b)%nat ->
      List.length l = (nat_of_ascii b - nat_of_ascii a + 1)%nat ->
      (forall i s, nth_error l i = Some s -> s = letter_at a i) ->
      index_list text l
  | il_list : free_of "-" text -> cut "," text l -> index_list text l.

(** The text of index [i] of a dim element. *)
Definition index_text (d : dim_element) (i : N) (s : string) : Prop :=
  match de_index d with
  | Some l => nth_error l (N.to_nat i) = Some s
  | None => numeral i s
  end.

(** [r] is [s] with every placeholder replaced by [idx], in one pass. *)
Inductive substituted (idx : string) : string -> string -> Prop :=
  | sub_end : substituted idx EmptyString EmptyString
  | sub_bracket s r : substituted idx s r -> substituted idx ("[%s]" ++ s)%string (idx ++ r)%string
  | sub_plain s r : substituted idx s r -> substituted idx ("%s" ++ s)%string (idx ++ r)%string
  | sub_char c s r :
      (forall t, String c s <> ("[%s]" ++ t)%string) -> (forall t, String c s <> ("%s" ++ t)%string) ->
      substituted idx s r -> substituted idx (String c s) (String c r).

(** The dimArrayIndex entry for an index text: the first value whose numeral it is. *)
Definition entry_for (d : dim_element) (idx : string) (e : enumerated_value) : Prop :=
  exists dai before after v, de_array_index d = Some dai /\
    dai_values dai = before ++ e :: after /\ ev_value e = Some v /\ numeral v idx /\
    Forall (fun e' => forall v', ev_value e' = Some v' -> ~ numeral v' idx) before.
Definition no_entry (d : dim_element) (idx : string) : Prop := forall e, ~ entry_for d idx e.

(** [r] is [s] with every [pat] replaced by [by_], from left to right. *)
Inductive replaced (pat by_ : string) : string -> string -> Prop :=
  | re_end : replaced pat by_ EmptyString EmptyString
  | re_hit s r : replaced pat by_ s r -> replaced pat by_ (pat ++ s)%string (by_ ++ r)%string
  | re_char c s r : (forall t, String c s <> (pat ++ t)%string) -> replaced pat by_ s r ->
      replaced pat by_ (String c s) (String c r).
(** What the text [s] is for the instance with index text [idx]: two passes. *)
Definition filled (idx s r : string) : Prop := exists u, replaced "[%s]" idx s u /\ replaced "%s" idx u r.
(** The two passes cannot interact, so that [filled] is [substituted]: the index contains
    no percent sign and the template no percent sign directly before [[%s]]. *)
Definition plain_template (idx s : string) : Prop :=
  free_of "%" idx /\ forall a b, s <> (a ++ "%[%s]" ++ b)%string.
(** Names and descriptions of the instance with index text [idx] *)
Definition name_of_instance (d : dim_element) (template idx name : string) : Prop :=
  (exists e, entry_for d idx e /\ name = ev_name e) \/
  (no_entry d idx /\ filled idx template name).
Definition description_of_instance (d : dim_element) (template : option string) (idx : string)
    (descr : option string) : Prop :=
  (exists e t, entry_for d idx e /\ ev_description e = Some t /\ descr = Some t) \/
  ((forall e, entry_for d idx e -> ev_description e = None) /\
   match template with
   | None => descr = None
   | Some t => exists r, descr = Some r /\ filled idx t r
   end).

(** [x] is [base + i * increment], computed in machine integers of size [bound]: the
    exact value if it fits, otherwise the wrapped one. *)
Definition progression (bound base increment i x : N) : Prop :=
  x = (base + i * increment) mod bound.

(** ** Bits *)
Definition bits_of (offset width k : N) : Prop := offset <= k < offset + width.
(** Bit [k] belongs to the field, or to some instance of the field array. *)
Definition field_covers (f : field) (k : N) : Prop :=
  match f with
  | Single f => bits_of (br_offset (f_bit_range f)) (br_width (f_bit_range f)) k
  | Array f d => exists i, i < de_dim d /\
      bits_of (br_offset (f_bit_range f) + i * de_increment d) (br_width (f_bit_range f)) k
  end.
(** The field lies in a 64 bit word as far as the code's shifts are concerned. *)
Definition maskable_info (f : field_info) : Prop :=
  1 <= br_width (f_bit_range f) <= 64 /\ br_offset (f_bit_range f) < 64.
Definition maskable (f : field) : Prop :=
  match f with
  | Single f => maskable_info f
  | Array f d => maskable_info f /\ forall i, i < de_dim d -> i * de_increment d < 64
  end.
