(** Base notions shared by the whole model: outcomes, machine arithmetic and
    the string functions of the Rust standard library that the code calls.
    Definitions only; facts are in BaseFacts.v. *)
From Coq Require Export List NArith ZArith Bool String Ascii.
Export ListNotations.
#[global] Open Scope N_scope.
#[global] Open Scope string_scope.
#[global] Open Scope list_scope.
#[global] Open Scope N_scope.

(** ** Outcomes *)

(** Why a panic happened. [Overflow]: checked arithmetic, as in a debug build;
    [OutOfBounds]: slice index; [Unwrap]: unwrap/expect on None or Err;
    [Unreachable]: unreachable!(); [OutOfFuel]: the model's recursion bound was
    exhausted (stands for unbounded recursion when it happens for all bounds). *)
Inductive panic := Overflow | OutOfBounds | Unwrap | Unreachable | OutOfFuel.

(** What ParseIntError says (core::num::IntErrorKind, the kinds an unsigned number
    can have). *)
Inductive int_error := IEmpty | IInvalidDigit | IPosOverflow.
(** Which element an error of expand.rs is about. *)
Inductive ekind := KPeripheral | KCluster | KRegister | KField | KValues.

(** Errors: one flat type for svd-rs SvdError (svd-rs/src/lib.rs:132-187 and
    the per-type Error enums), svd-parser SVDError (svd-parser/src/lib.rs)
    and the anyhow errors of expand.rs. *)
Inductive err :=
  (* svd-rs build and validation errors *)
  | EUninitialized (what : string)
  | EName (name tag : string)
  | EEmptyRegisters
  | EEmptyCluster
  | EEmptyFields
  | EEmptyDevice
  | EEvAbsentValue
  | EEvValueAndDefault (v : option N)
  | EEvsEmpty
  | EZeroWidth
  | EEvOutOfRange (v start end_ : N)
  | EIncompatibleUsages
  | EWcReversedRange (a b : N)
  | EWcOutOfRange (v start end_ : N)
  | EValueTooLarge (v size : N)
  | EMaskTooLarge (m size : N)
  | EMaskConflict (v m : N)
  (* svd-parser errors *)
  | EMissingTag (tag : string)
  | EEmptyTag (tag : string)
  | EParseInt (k : int_error)
  | EInvalidBool (text : string)
  | ENotExpectedTag (tag : string)
  | EDimIndexParse
  | EIncorrectDimIndexesCount (n dim : N)
  | EMissingPlaceholder (name tag : string)
  | EMoreThanOneWriteConstraint
  | EUnknownWriteConstraint
  | EUnknownAccess (text : string) | EUnknownUsage | EUnknownDataType (text : string) | EUnknownEndian (text : string)
  | EUnknownReadAction (text : string) | EUnknownMwv (text : string) | EUnknownProtection (text : string) | EUnknownAbUsage
  | EInvalidBitRangeSyntax | EInvalidBitRangeParse | EInvalidBitRangeSize
  | EInvalidBitRangeMsbLsb | EInvalidBitRangeEmpty
  | EInvalidRegisterCluster (tag : string)
  (* expand errors *)
  | ESelfDerived (k : ekind) (path : string)
  | ENotFound (k : ekind) (path : string)
  (* serde: every error of deserialization *)
  | EDeserialize.

Inductive res (A : Type) :=
  | Ok (a : A)
  | Err (e : err)
  | Panic (p : panic).
Arguments Ok {A}. Arguments Err {A}. Arguments Panic {A}.

(** The [?] operator; panics propagate too. *)
Definition bind {A B} (m : res A) (f : A -> res B) : res B :=
  match m with Ok a => f a | Err e => Err e | Panic p => Panic p end.
Definition rmap {A B} (f : A -> B) (m : res A) : res B := bind m (fun a => Ok (f a)).

Declare Scope res_scope.
Delimit Scope res_scope with res.
#[global] Open Scope res_scope.
Notation "'let*' x ':=' m 'in' k" := (bind m (fun x => k))
  (at level 200, x pattern, m at level 200, k at level 200, right associativity) : res_scope.

(** Guard: [check b e] is the Rust idiom [if bad { return Err(e) }]. *)
Definition check (good : bool) (e : err) : res unit := if good then Ok tt else Err e.

(** [ok_or_else]. *)
Definition ok_or {A} (o : option A) (e : err) : res A :=
  match o with Some a => Ok a | None => Err e end.
(** [unwrap]/[expect]. *)
Definition unwrap {A} (o : option A) : res A :=
  match o with Some a => Ok a | None => Panic Unwrap end.

(** A for loop with [?] in its body, collecting the results; stops at the first
    error or panic. *)
Section MapM.
  Context {A B : Type}.
  Variable f : A -> res B.
  Fixpoint mapM (l : list A) : res (list B) :=
    match l with
    | [] => Ok []
    | a :: l' => let* b := f a in let* bs := mapM l' in Ok (b :: bs)
    end.
End MapM.
Section IterM.
  Context {A : Type}.
  Variable f : A -> res unit.
  Fixpoint iterM (l : list A) : res unit :=
    match l with
    | [] => Ok tt
    | a :: l' => let* _ := f a in iterM l'
    end.
End IterM.
Section ConcatM.
  Context {A B : Type}.
  Variable f : A -> res (list B).
  (** Loop whose body appends a batch of results to an output vector. *)
  Fixpoint concatM (l : list A) : res (list B) :=
    match l with
    | [] => Ok []
    | a :: l' => let* b := f a in let* bs := concatM l' in Ok (b ++ bs)
    end.
End ConcatM.

Definition mapM_opt {A B} (f : A -> res B) (o : option A) : res (option B) :=
  match o with Some a => let* b := f a in Ok (Some b) | None => Ok None end.
Definition iterM_opt {A} (f : A -> res unit) (o : option A) : res unit :=
  match o with Some a => f a | None => Ok tt end.

(** ** Machine arithmetic *)

(** Build mode: Debug panics on overflow, Release wraps (Rust reference,
    "overflow-checks"). *)
Inductive mode := Debug | Release.

Definition pow32 : N := 4294967296.
Definition pow64 : N := 18446744073709551616.
Definition u32_max : N := 4294967295.

Definition add_w (bound : N) (m : mode) (a b : N) : res N :=
  if a + b <? bound then Ok (a + b)
  else match m with Debug => Panic Overflow | Release => Ok ((a + b) mod bound) end.
Definition sub_w (bound : N) (m : mode) (a b : N) : res N :=
  if b <=? a then Ok (a - b)
  else match m with Debug => Panic Overflow | Release => Ok ((a + bound - b) mod bound) end.
Definition mul_w (bound : N) (m : mode) (a b : N) : res N :=
  if a * b <? bound then Ok (a * b)
  else match m with Debug => Panic Overflow | Release => Ok ((a * b) mod bound) end.

Definition add32 := add_w pow32.
Definition sub32 := sub_w pow32.
Definition mul32 := mul_w pow32.
Definition add64 := add_w pow64.
Definition mul64 := mul_w pow64.

(** [u64 << u32] and [u64 >> u32]: the shift amount must be below 64; in Release
    it is masked to 6 bits. *)
Definition shl64 (m : mode) (a s : N) : res N :=
  if s <? 64 then Ok (N.shiftl a s mod pow64)
  else match m with Debug => Panic Overflow | Release => Ok (N.shiftl a (s mod 64) mod pow64) end.
Definition shr64 (m : mode) (a s : N) : res N :=
  if s <? 64 then Ok (N.shiftr a s)
  else match m with Debug => Panic Overflow | Release => Ok (N.shiftr a (s mod 64)) end.

(** ** Lists *)

(** The Rust range [0..n] as a list. *)
Definition upto (n : N) : list N := map N.of_nat (seq 0 (N.to_nat n)).
(** The Rust inclusive range [a..=b]; empty when a > b. *)
Definition range_incl (a b : N) : list N := map (fun i => a + i) (upto (b + 1 - a)).

Definition nth_N {A} (l : list A) (i : N) : option A := nth_error l (N.to_nat i).
Definition len_N {A} (l : list A) : N := N.of_nat (List.length l).
(** Slice indexing [l[i]]. *)
Definition index_N {A} (l : list A) (i : N) : res A :=
  match nth_N l i with Some a => Ok a | None => Panic OutOfBounds end.

Definition is_nil {A} (l : list A) : bool := match l with [] => true | _ => false end.
Definition is_some {A} (o : option A) : bool := match o with Some _ => true | None => false end.
Definition is_none {A} (o : option A) : bool := negb (is_some o).
(** [Option::or]. *)
Definition opt_or {A} (a b : option A) : option A := match a with Some _ => a | None => b end.
Definition opt_default {A} (d : A) (a : option A) : A := match a with Some x => x | None => d end.

Fixpoint find_first {A} (f : A -> bool) (l : list A) : option A :=
  match l with [] => None | a :: l' => if f a then Some a else find_first f l' end.

(** ** Strings (byte strings, UTF-8) *)

Definition chr (n : N) : ascii := ascii_of_N n.
Definition byte (c : ascii) : N := N_of_ascii c.

Definition seqb (a b : string) : bool := String.eqb a b.
Definition str_empty (s : string) : bool := match s with EmptyString => true | _ => false end.

(** str::starts_with, str::strip_prefix *)
Fixpoint strip_prefix (p s : string) : option string :=
  match p, s with
  | EmptyString, _ => Some s
  | String a p', String b s' => if Ascii.eqb a b then strip_prefix p' s' else None
  | String _ _, EmptyString => None
  end.
Definition starts_with (p s : string) : bool := is_some (strip_prefix p s).

(** str::contains with a string pattern. *)
Fixpoint contains (p s : string) : bool :=
  starts_with p s || match s with EmptyString => false | String _ s' => contains p s' end.
(** str::contains with a char pattern (ASCII). *)
Fixpoint contains_char (c : ascii) (s : string) : bool :=
  match s with EmptyString => false | String a s' => Ascii.eqb a c || contains_char c s' end.

(** str::replace: leftmost, non-overlapping; [skip] counts bytes of a match that
    are still to be dropped. Only called with non-empty patterns. *)
Fixpoint replace_go (pat by_ : string) (s : string) (skip : nat) : string :=
  match s with
  | EmptyString => EmptyString
  | String c s' =>
      match skip with
      | S k => replace_go pat by_ s' k
      | O => if starts_with pat s
             then (by_ ++ replace_go pat by_ s' (Nat.pred (String.length pat)))%string
             else String c (replace_go pat by_ s' 0)
      end
  end.
Definition replace (pat by_ s : string) : string := replace_go pat by_ s 0.

(** str::split with an ASCII char: always at least one piece. *)
Fixpoint split (c : ascii) (s : string) : list string :=
  match s with
  | EmptyString => [EmptyString]
  | String a s' =>
      if Ascii.eqb a c then EmptyString :: split c s'
      else match split c s' with
           | h :: t => String a h :: t
           | [] => [String a EmptyString]
           end
  end.
(** str::split_once *)
Fixpoint split_once (c : ascii) (s : string) : option (string * string) :=
  match s with
  | EmptyString => None
  | String a s' =>
      if Ascii.eqb a c then Some (EmptyString, s')
      else match split_once c s' with
           | Some (x, y) => Some (String a x, y)
           | None => None
           end
  end.
(** str::rsplit_once *)
Fixpoint rsplit_once (c : ascii) (s : string) : option (string * string) :=
  match s with
  | EmptyString => None
  | String a s' =>
      match rsplit_once c s' with
      | Some (x, y) => Some (String a x, y)
      | None => if Ascii.eqb a c then Some (EmptyString, s') else None
      end
  end.
(** slice::join *)
Fixpoint join (sep : string) (l : list string) : string :=
  match l with
  | [] => EmptyString
  | [s] => s
  | s :: l' => (s ++ sep ++ join sep l')%string
  end.

(** Last byte, for ends_with(char); first byte for starts_with(char). *)
Fixpoint last_char (s : string) : option ascii :=
  match s with
  | EmptyString => None
  | String c EmptyString => Some c
  | String _ s' => last_char s'
  end.
(** Everything but the last byte. *)
Fixpoint drop_last (s : string) : string :=
  match s with
  | EmptyString => EmptyString
  | String _ EmptyString => EmptyString
  | String c s' => String c (drop_last s')
  end.

(** Length in bytes of the Unicode White_Space character at the front, 0 if
    there is none (char::is_whitespace on UTF-8 bytes: U+0009-000D, 0020, 0085,
    00A0, 1680, 2000-200A, 2028, 2029, 202F, 205F, 3000). *)
Definition ws_front (s : string) : nat :=
  match s with
  | EmptyString => 0
  | String a s1 =>
    let a := byte a in
    if ((9 <=? a) && (a <=? 13)) || (a =? 32) then 1
    else match s1 with
    | EmptyString => 0
    | String b s2 =>
      let b := byte b in
      if (a =? 194) && ((b =? 133) || (b =? 160)) then 2
      else match s2 with
      | EmptyString => 0
      | String c _ =>
        let c := byte c in
        if ((a =? 225) && (b =? 154) && (c =? 128))
           || ((a =? 226) && (b =? 128) &&
               (((128 <=? c) && (c <=? 138)) || (c =? 168) || (c =? 169) || (c =? 175)))
           || ((a =? 226) && (b =? 129) && (c =? 159))
           || ((a =? 227) && (b =? 128) && (c =? 128))
        then 3 else 0
      end
    end
  end.
(** str::trim_start; [skip] as in [replace_go]. *)
Fixpoint trim_start_go (s : string) (skip : nat) : string :=
  match s with
  | EmptyString => EmptyString
  | String _ s' =>
      match skip with
      | S k => trim_start_go s' k
      | O => match ws_front s with
             | O => s
             | S k => trim_start_go s' k
             end
      end
  end.
Definition trim_start (s : string) : string := trim_start_go s 0.
(** str::trim_end: drops the longest suffix made of whitespace characters. No
    whitespace character starts with a UTF-8 continuation byte, so scanning byte
    positions finds the same suffix as scanning characters. *)
Fixpoint trim_end (s : string) : string :=
  match s with
  | EmptyString => EmptyString
  | String c s' => if str_empty (trim_start s) then EmptyString else String c (trim_end s')
  end.
(** str::trim *)
Definition trim (s : string) : string := trim_end (trim_start s).

(** ASCII part of str::to_lowercase. Full Unicode lower-casing also maps
    non-ASCII characters; the only caller (svd-parser/src/types.rs:23,53) keeps
    the text only if it then consists of 0, 1, x and a plus sign, and no
    non-ASCII character has these as its lower case. *)
Definition lower_ascii (c : ascii) : ascii :=
  let n := byte c in if (65 <=? n) && (n <=? 90) then chr (n + 32) else c.
Fixpoint to_lowercase (s : string) : string :=
  match s with EmptyString => EmptyString | String c s' => String (lower_ascii c) (to_lowercase s') end.

(** ** Integers and text *)

(** char::to_digit for radix up to 16. *)
Definition digit_val (base : N) (c : ascii) : option N :=
  let n := byte c in
  let v := if (48 <=? n) && (n <=? 57) then Some (n - 48)
           else if (97 <=? n) && (n <=? 102) then Some (n - 87)
           else if (65 <=? n) && (n <=? 70) then Some (n - 55)
           else None in
  match v with Some d => if d <? base then Some d else None | None => None end.

(** The digit loop of core::num from_str_radix: read a digit, multiply, check,
    add, check. *)
Fixpoint digits_scan (base bound : N) (acc : N) (s : string) : N + int_error :=
  match s with
  | EmptyString => inl acc
  | String c s' =>
      match digit_val base c with
      | None => inr IInvalidDigit
      | Some d =>
          let acc1 := acc * base in
          if acc1 <? bound then
            let acc2 := acc1 + d in
            if acc2 <? bound then digits_scan base bound acc2 s' else inr IPosOverflow
          else inr IPosOverflow
      end
  end.
(** {u32,u64}::from_str_radix and from_str (radix 10): empty is an error, one
    leading plus sign is allowed if something follows. *)
Definition radix_scan (base bound : N) (s : string) : N + int_error :=
  match s with
  | EmptyString => inr IEmpty
  | String "+" EmptyString => inr IInvalidDigit
  | String "+" s' => digits_scan base bound 0 s'
  | _ => digits_scan base bound 0 s
  end.
(** Result::ok *)
Definition sum_ok {A E} (r : A + E) : option A := match r with inl a => Some a | inr _ => None end.
Definition from_str_radix (base bound : N) (s : string) : option N := sum_ok (radix_scan base bound s).
Definition parse_dec (bound : N) (s : string) : option N := from_str_radix 10 bound s.

(** Digits of core::fmt integer formatting. *)
Definition digit_char (upper : bool) (d : N) : ascii :=
  if d <? 10 then chr (48 + d) else chr ((if upper then 55 else 87) + d).
(** Repeated division, most significant digit first; [fuel] is the bit length of
    the number, which bounds the number of digits. *)
Fixpoint fmt_go (upper : bool) (base : N) (fuel : nat) (n : N) (acc : string) : string :=
  let acc' := String (digit_char upper (n mod base)) acc in
  match fuel with
  | O => acc'
  | S f => if n / base =? 0 then acc' else fmt_go upper base f (n / base) acc'
  end.
Definition fmt_radix (upper : bool) (base n : N) : string :=
  fmt_go upper base (N.size_nat n) n EmptyString.
(** ToString for unsigned integers. *)
Definition to_string (n : N) : string := fmt_radix false 10 n.

(** Zero padding on the left up to [w] characters. *)
Fixpoint zeros (n : nat) : string := match n with O => EmptyString | S k => String "0" (zeros k) end.
Definition pad0 (w : nat) (s : string) : string := (zeros (w - String.length s) ++ s)%string.
