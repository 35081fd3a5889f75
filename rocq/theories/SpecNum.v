(** What number texts mean, independently of the code. *)
From Coq Require Import List NArith String Ascii.
Import ListNotations.
Open Scope N_scope.

(** The digits of the usual positional notations and their values. *)
Definition digit_table : list (ascii * N) :=
  [("0",0);("1",1);("2",2);("3",3);("4",4);("5",5);("6",6);("7",7);("8",8);("9",9);
   ("a",10);("b",11);("c",12);("d",13);("e",14);("f",15);
   ("A",10);("B",11);("C",12);("D",13);("E",14);("F",15)]%char.
Definition digit (base : N) (c : ascii) (d : N) : Prop := In (c, d) digit_table /\ d < base.

(** Value of a digit sequence, most significant first. *)
Fixpoint positional (base : N) (ds : list N) : N :=
  match ds with
  | [] => 0
  | d :: ds' => d * base ^ N.of_nat (List.length ds') + positional base ds'
  end.

(** [t] is a non-empty string of characters that [dig] reads as digits, and denotes
    [v]; a plus sign may precede it. *)
Definition digits_with (dig : ascii -> N -> Prop) (base : N) (t : string) (v : N) : Prop :=
  exists ds, t <> EmptyString /\ Forall2 dig (list_ascii_of_string t) ds /\ v = positional base ds.
Definition signed (P : string -> N -> Prop) (t : string) (v : N) : Prop :=
  P t v \/ exists t', t = String "+" t' /\ P t' v.

(** A binary digit, or one of the don't-care characters [xs], read as 0. *)
Definition bit_or_x (xs : list ascii) (c : ascii) (d : N) : Prop := digit 2 c d \/ (In c xs /\ d = 0).

(** [s] is a number text denoting [v]. *)
Inductive number_text (s : string) (v : N) : Prop :=
  | nt_dec : signed (digits_with (digit 10) 10) s v -> number_text s v
  | nt_hex t : s = ("0x" ++ t)%string \/ s = ("0X" ++ t)%string ->
      signed (digits_with (digit 16) 16) t v -> number_text s v
  | nt_hash t : s = ("#" ++ t)%string ->
      signed (digits_with (bit_or_x ["x"; "X"]%char) 2) t v -> number_text s v
  | nt_bin t : s = ("0b" ++ t)%string ->
      signed (digits_with (bit_or_x ["x"]%char) 2) t v -> number_text s v.

(** ** What is wrong with a text that is not the number of a value below [bound] *)
(** The part of [s] that should be digits, its base and what counts as a digit there. *)
Inductive digits_part (s : string) : N -> (ascii -> N -> Prop) -> string -> Prop :=
  | dp_hex t : s = ("0x" ++ t)%string \/ s = ("0X" ++ t)%string -> digits_part s 16 (digit 16) t
  | dp_hash t : s = ("#" ++ t)%string -> digits_part s 2 (bit_or_x ["x"; "X"]%char) t
  | dp_bin t : s = ("0b" ++ t)%string -> digits_part s 2 (bit_or_x ["x"]%char) t
  | dp_dec : (forall p t, In p ["0x"; "0X"; "#"; "0b"]%string -> s <> (p ++ t)%string) -> digits_part s 10 (digit 10) s.
(** [u] is [t] without its sign. *)
Definition past_sign (t u : string) : Prop := t = String "+" u \/ (t = u /\ forall r, t <> String "+" r).
(** There is nothing to read. *)
Definition nothing_to_read (s : string) : Prop := exists base dig, digits_part s base dig EmptyString.
(** A character that is not a digit comes, and up to there the number was not too large; or
    there is only a sign. *)
Definition stray_character (bound : N) (s : string) : Prop :=
  exists base dig t u, digits_part s base dig t /\ t <> EmptyString /\ past_sign t u /\
    (u = EmptyString \/
     exists p c r, u = (p ++ String c r)%string /\ (forall d, ~ dig c d) /\
       (p = EmptyString \/ exists v, digits_with dig base p v /\ v < bound)).
(** The first digits alone make a number that is too large. *)
Definition too_many_digits (bound : N) (s : string) : Prop :=
  exists base dig t u p r v, digits_part s base dig t /\ past_sign t u /\ u = (p ++ r)%string /\
    digits_with dig base p v /\ bound <= v.
