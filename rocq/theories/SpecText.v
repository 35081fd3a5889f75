(** White space around a text, independently of the code's scanning functions. *)
From Coq Require Import List NArith String Ascii.
Import ListNotations.
Open Scope N_scope.

(** The Unicode characters with the White_Space property, and their UTF-8 bytes. *)
Definition white_code_points : list N :=
  [9; 10; 11; 12; 13; 32; 133; 160; 5760; 8192; 8193; 8194; 8195; 8196; 8197; 8198; 8199;
   8200; 8201; 8202; 8232; 8233; 8239; 8287; 12288].
Definition utf8 (n : N) : string :=
  let b k := ascii_of_N k in
  if n <? 128 then String (b n) ""
  else if n <? 2048 then String (b (192 + n / 64)) (String (b (128 + n mod 64)) "")
  else String (b (224 + n / 4096)) (String (b (128 + n / 64 mod 64)) (String (b (128 + n mod 64)) "")).
Definition white (c : string) : Prop := exists n, In n white_code_points /\ c = utf8 n.
Inductive spaces : string -> Prop :=
  | sp_nil : spaces ""
  | sp_cons c s : white c -> spaces s -> spaces (c ++ s)%string.

(** [t] is [s] without the white space around it. *)
Definition trimmed (s t : string) : Prop :=
  exists a b, s = (a ++ t ++ b)%string /\ spaces a /\ spaces b /\
    (forall c u, white c -> t <> (c ++ u)%string) /\
    (forall c u, white c -> t <> (u ++ c)%string).
