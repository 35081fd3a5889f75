(** The XML tree shared by the writer (xmltree::Element) and the reader
    (roxmltree::Node), and svd-parser's accessors on it. *)
From Verif Require Import Base Num.

(** Element names are local names. Attributes are (qualified name, value) pairs.
    [Misc] stands for comments and processing instructions. *)
Inductive xml :=
  | Elem (name : string) (attrs : list (string * string)) (children : list xml)
  | Text (s : string)
  | Misc.

(** Node::tag_name().name(), has_tag_name, is_element, children *)
Definition tag (n : xml) : string := match n with Elem t _ _ => t | _ => "" end.
Definition is_element (n : xml) : bool := match n with Elem _ _ _ => true | _ => false end.
Definition has_tag (t : string) (n : xml) : bool := match n with Elem u _ _ => seqb u t | _ => false end.
Definition children (n : xml) : list xml := match n with Elem _ _ c => c | _ => [] end.
(** Node::attribute *)
Definition attr (k : string) (n : xml) : option string :=
  match n with
  | Elem _ a _ => option_map snd (find_first (fun kv => seqb (fst kv) k) a)
  | _ => None
  end.
(** Node::text: the text of the first child if that is a text node. A document has no
    empty text nodes: what the writer emits for one reads back as no node. *)
Definition text (n : xml) : option string :=
  match children n with
  | Text s :: _ => if str_empty s then None else Some s
  | _ => None
  end.

(** svd-parser/src/elementext.rs:33-38 *)
Definition get_child (k : string) (n : xml) : option xml := find_first (has_tag k) (children n).
(** elementext.rs:71-80 *)
Definition get_text (n : xml) : res string :=
  match text n with Some s => Ok (trim s) | None => Err (EEmptyTag (tag n)) end.
(** elementext.rs:39-60 *)
Definition get_child_text_opt (k : string) (n : xml) : res (option string) :=
  match get_child k n with
  | Some c =>
      match get_text c with
      | Ok s => Ok (Some s)
      | Err (EEmptyTag _) => Ok None
      | Err e => Err e
      | Panic p => Panic p
      end
  | None => Ok None
  end.
(** elementext.rs:61-68 *)
Definition get_child_text (k : string) (n : xml) : res string :=
  let* o := get_child_text_opt k n in ok_or o (EMissingTag k).
(** elementext.rs:83-86 *)
Definition get_child_elem (k : string) (n : xml) : res xml := ok_or (get_child k n) (EMissingTag k).
(** svd-parser/src/types.rs:8-36, 38-66: u32 and u64 *)
Definition num_parse (bound : N) (n : xml) : res N := let* t := get_text n in parse_num bound t.
(** types.rs:70-86 *)
Definition bool_parse (n : xml) : res bool := let* t := get_text n in parse_bool t.
(** elementext.rs:89-104 *)
Definition get_child_u32 (k : string) (n : xml) : res N := let* c := get_child_elem k n in num_parse pow32 c.
Definition get_child_u64 (k : string) (n : xml) : res N := let* c := get_child_elem k n in num_parse pow64 c.
Definition get_child_bool (k : string) (n : xml) : res bool := let* c := get_child_elem k n in bool_parse c.
(** svd-parser/src/lib.rs:98-111 *)
Definition optional {A} (f : xml -> res A) (k : string) (n : xml) : res (option A) :=
  mapM_opt f (get_child k n).

(** [tree.children().filter(p).map(f).collect::<Result<Vec<_>, _>>()] *)
Section Collect.
  Context {A : Type}.
  Variable p : xml -> bool.
  Variable f : xml -> res A.
  Fixpoint collect (l : list xml) : res (list A) :=
    match l with
    | [] => Ok []
    | n :: l' =>
        if p n then let* a := f n in let* r := collect l' in Ok (a :: r)
        else collect l'
    end.
End Collect.

(** ** Writing *)

(** svd-encoder/src/lib.rs:79-83 *)
Definition new_node (name text : string) : xml := Elem name [] [Text text].
(** Map::insert on attributes *)
Fixpoint insert_attr (k v : string) (l : list (string * string)) : list (string * string) :=
  match l with
  | [] => [(k, v)]
  | (k', v') :: l' => if seqb k' k then (k, v) :: l' else (k', v') :: insert_attr k v l'
  end.
(** svd-encoder/src/lib.rs:68-76 *)
Definition merge (a b : xml) : xml :=
  match a, b with
  | Elem t attrs ch, Elem _ attrs' ch' =>
      Elem t (fold_left (fun l kv => insert_attr (fst kv) (snd kv) l) attrs' attrs) (ch ++ ch')
  | _, _ => a
  end.
(** [if let Some(v) = &self.x { children.push(node) }] *)
Definition opt_node {A} (f : A -> xml) (o : option A) : list xml :=
  match o with Some a => [f a] | None => [] end.
(** [if let Some(v) = &self.derived_from { attributes.insert("derivedFrom", ..) }] *)
Definition derived_attr (f : string -> string) (o : option string) : list (string * string) :=
  match o with Some v => [("derivedFrom", f v)] | None => [] end.
