(** The exact text of numbers and booleans, independently of the code. *)
From Coq Require Import List NArith String Ascii.
From Verif Require Import Num SpecNum.
Open Scope N_scope.

Definition cased (upper : bool) (c : ascii) : Prop :=
  In c (list_ascii_of_string (if upper then "0123456789ABCDEF" else "0123456789abcdef")).
(** [t] denotes [v] with letters of one case, has at least [w] digits, and no leading
    zero that is not needed for that. *)
Definition laid_out (upper : bool) (base : N) (w : nat) (t : string) (v : N) : Prop :=
  digits_with (fun c d => digit base c d /\ cased upper c) base t v /\
  (w <= String.length t)%nat /\
  ((Nat.max 1 w < String.length t)%nat -> forall t', t <> String "0" t').
(** The text of [n] in a format, as config.rs documents them. *)
Definition number_shape (f : number_format) (n : N) (s : string) : Prop :=
  match f with
  | UpperHex => exists t, s = ("0x" ++ t)%string /\ laid_out true 16 1 t n
  | UpperHex8 => exists t, s = ("0x" ++ t)%string /\ laid_out true 16 8 t n
  | UpperHex16 => exists t, s = ("0x" ++ t)%string /\
      (n < 2 ^ 32 -> laid_out true 16 8 t n) /\ (2 ^ 32 <= n -> laid_out true 16 16 t n)
  | LowerHex => exists t, s = ("0x" ++ t)%string /\ laid_out false 16 1 t n
  | LowerHex8 => exists t, s = ("0x" ++ t)%string /\ laid_out false 16 8 t n
  | LowerHex16 => exists t, s = ("0x" ++ t)%string /\
      (n < 2 ^ 32 -> laid_out false 16 8 t n) /\ (2 ^ 32 <= n -> laid_out false 16 16 t n)
  | Dec => laid_out false 10 1 s n
  | Bin => exists t, s = ("0b" ++ t)%string /\ laid_out false 2 1 t n
  end.

Inductive boolean_text : string -> bool -> Prop :=
  | bt_0 : boolean_text "0" false
  | bt_1 : boolean_text "1" true
  | bt_true : boolean_text "true" true
  | bt_false : boolean_text "false" false.
