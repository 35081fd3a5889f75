(** Name checks of svd-rs. *)
From Verif Require Import Base.

(** ** Regular expressions
    The regex crate's is_match on an anchored pattern, as whole-string matching by
    derivatives. Only the operators that the two patterns use. *)
Inductive re :=
  | REmpty
  | REps
  | RCls (f : ascii -> bool)
  | RSeq (a b : re)
  | RAlt (a b : re)
  | RStar (a : re).

Fixpoint nullable (r : re) : bool :=
  match r with
  | REmpty => false | REps => true | RCls _ => false
  | RSeq a b => nullable a && nullable b
  | RAlt a b => nullable a || nullable b
  | RStar _ => true
  end.
Fixpoint deriv (c : ascii) (r : re) : re :=
  match r with
  | REmpty => REmpty | REps => REmpty
  | RCls f => if f c then REps else REmpty
  | RSeq a b => if nullable a then RAlt (RSeq (deriv c a) b) (deriv c b) else RSeq (deriv c a) b
  | RAlt a b => RAlt (deriv c a) (deriv c b)
  | RStar a => RSeq (deriv c a) (RStar a)
  end.
Fixpoint re_match (r : re) (s : string) : bool :=
  match s with EmptyString => nullable r | String c s' => re_match (deriv c r) s' end.

Definition ROpt (r : re) : re := RAlt r REps.
Fixpoint RLit (s : string) : re :=
  match s with EmptyString => REps | String c s' => RSeq (RCls (Ascii.eqb c)) (RLit s') end.

Definition between (lo hi : N) (c : ascii) : bool := (lo <=? byte c) && (byte c <=? hi).
(** [_A-Za-z] *)
Definition cls_head (c : ascii) : bool := Ascii.eqb c "_" || between 65 90 c || between 97 122 c.
(** [_A-Za-z0-9] *)
Definition cls_word (c : ascii) : bool := cls_head c || between 48 57 c.

(** svd-rs/src/lib.rs:190: ^[_A-Za-z0-9]*$ *)
Definition name_pattern : re := RStar (RCls cls_word).
(** svd-rs/src/lib.rs:200, the four alternatives in order:
    (%s)|(%s)[_A-Za-z]{1}[_A-Za-z0-9]*
    [_A-Za-z]{1}[_A-Za-z0-9]*(\[%s\])?
    [_A-Za-z]{1}[_A-Za-z0-9]*(%s)?[_A-Za-z0-9]* *)
Definition dimable_pattern : re :=
  RAlt
    (RAlt (RAlt (RLit "%s")
                (RSeq (RLit "%s") (RSeq (RCls cls_head) (RStar (RCls cls_word)))))
          (RSeq (RCls cls_head) (RSeq (RStar (RCls cls_word)) (ROpt (RLit "[%s]")))))
    (RSeq (RCls cls_head)
       (RSeq (RStar (RCls cls_word)) (RSeq (ROpt (RLit "%s")) (RStar (RCls cls_word))))).

(** svd-rs/src/lib.rs:189-196 *)
Definition check_name (name tag : string) : res unit :=
  check (re_match name_pattern name) (EName name tag).
(** svd-rs/src/lib.rs:198-207 *)
Definition check_dimable_name (name tag : string) : res unit :=
  check (re_match dimable_pattern name) (EName name tag).
(** svd-rs/src/lib.rs:209-214 *)
Definition check_derived_name (name tag : string) : res unit :=
  iterM (fun x => check_dimable_name x tag) (split "." name).

(** svd-rs/src/lib.rs:216-230, EmptyToNone *)
Definition empty_str_to_none (o : option string) : option string :=
  match o with Some s => if str_empty s then None else Some s | None => None end.
Definition empty_vec_to_none {A} (o : option (list A)) : option (list A) :=
  match o with Some l => if is_nil l then None else Some l | None => None end.
