(** Number texts: the parser's grammar and the encoder's formats. *)
From Verif Require Import Base.

(** svd-parser/src/types.rs:13-35 (u32, [bound] = 2^32) and 43-65 (u64,
    [bound] = 2^64), after get_text. *)
Definition parse_num (bound : N) (text : string) : res N :=
  match
    (match strip_prefix "0x" text, strip_prefix "0X" text with
     | Some t, _ => radix_scan 16 bound t
     | None, Some t => radix_scan 16 bound t
     | None, None =>
       match strip_prefix "#" (to_lowercase text) with
       | Some t => radix_scan 2 bound (replace "x" "0" t)
       | None =>
         match strip_prefix "0b" text with
         | Some t => radix_scan 2 bound (replace "x" "0" t)
         | None => radix_scan 10 bound text
         end
       end
     end)
  with inl v => Ok v | inr k => Err (EParseInt k) end.

(** svd-parser/src/types.rs:75-85; bool::from_str accepts "true" and "false". *)
Definition parse_bool (text : string) : res bool :=
  if seqb text "0" then Ok false
  else if seqb text "1" then Ok true
  else if seqb text "true" then Ok true
  else if seqb text "false" then Ok false
  else Err (EInvalidBool text).

(** svd-encoder/src/config.rs:67-100 *)
Inductive number_format :=
  | UpperHex | UpperHex8 | UpperHex16 | LowerHex | LowerHex8 | LowerHex16 | Dec | Bin.

(** [{:#X}], [{:#0wX}] with w-2 digits after the prefix (core::fmt: the width
    counts the prefix). *)
Definition hex (upper : bool) (digits : nat) (v : N) : string :=
  ("0x" ++ pad0 digits (fmt_radix upper 16 v))%string.

(** svd-encoder/src/config.rs:120-151 *)
Definition format_number (v : N) (f : number_format) : string :=
  match f with
  | UpperHex => hex true 0 v
  | UpperHex8 => hex true 8 v
  | UpperHex16 => if u32_max <? v then hex true 16 v else hex true 8 v
  | LowerHex => hex false 0 v
  | LowerHex8 => hex false 8 v
  | LowerHex16 => if u32_max <? v then hex false 16 v else hex false 8 v
  | Dec => to_string v
  | Bin => ("0b" ++ fmt_radix false 2 v)%string
  end.
