(** The entry points: parse and parse_with_config of svd-parser/src/lib.rs, encode and
    encode_with_config of svd-encoder/src/lib.rs. *)
From Verif Require Import Base Types Config Xml Encode Parse Expand.

(** svd-parser/src/lib.rs:182-189. The bytes EF BB BF. *)
Definition utf8_mark : string := String (chr 239) (String (chr 187) (String (chr 191) EmptyString)).
Definition trim_utf8_bom (s : string) : string :=
  if (2 <? N.of_nat (String.length s)) then
    match strip_prefix utf8_mark s with Some t => t | None => s end
  else s.
(** lib.rs:119-180. Document::parse of roxmltree is the parameter [document]: it gives the
    root node, whose children are the nodes at top level, or an error. The texts added to
    an error (lib.rs:136-167) are those of [parse_document] in ParseAt.v. *)
Definition parse_with_config (m : mode) (fuel : nat) (document : string -> res xml) (cfg : pconfig)
    (xml : string) : res device :=
  let* root := document (trim_utf8_bom xml) in
  let* xmldevice := ok_or (get_child "device" root) (EMissingTag "device") in
  let* d := device_parse m cfg xmldevice in
  let d := if pc_expand_properties cfg then expand_properties d else d in
  if pc_expand cfg then expand m fuel d else Ok d.
(** lib.rs:37-53: derive(Default); ValidateLevel::default is Weak (svd-rs/src/lib.rs) *)
Definition default_parse_config : pconfig :=
  {| pc_level := Weak; pc_expand := false; pc_expand_properties := false; pc_ignore_enums := false |}.
(** lib.rs:115-117 *)
Definition parse (m : mode) (fuel : nat) (document : string -> res xml) (xml : string) : res device :=
  parse_with_config m fuel document default_parse_config xml.

(** svd-encoder/src/lib.rs:53-61. Writing an element as text (xmltree) is [print]. *)
Definition encode_with_config (m : mode) (conv : id_format -> string -> string) (print : xml -> string)
    (d : device) (cfg : config) : res string :=
  let* root := device_encode m conv cfg d in Ok (print root).
(** svd-encoder/src/lib.rs:48-50 *)
Definition encode (m : mode) (conv : id_format -> string -> string) (print : xml -> string) (d : device) : res string :=
  encode_with_config m conv print d config_default.
