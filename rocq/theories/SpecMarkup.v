(** A text form of trees, with indentation, and a reader of it, for C60. This is not code
    of /repo: svd-encoder/src/lib.rs:53-61 leaves the writing to xmltree (with perform_indent)
    and svd-parser/src/lib.rs:119-135 the reading to roxmltree. It shows that the conditions of C60 on
    these two can be met, for every device. *)
From Verif Require Import Base BaseFacts Xml.

Definition lf : ascii := chr 10.
Definition cr : ascii := chr 13.
Definition tab : ascii := chr 9.
Definition quote : ascii := chr 34.
Definition quoted (s : string) : string := String quote (s ++ String quote "")%string.

(** ** Escapes *)
Definition escapes_text : list (ascii * string) := [("&"%char, "amp;"%string); ("<"%char, "lt;"%string); (">"%char, "gt;"%string)].
Definition escapes : list (ascii * string) :=
  escapes_text ++ [(quote, "quot;"%string); ("'"%char, "apos;"%string); (lf, "#xA;"%string); (cr, "#xD;"%string)].
Fixpoint escape (t : list (ascii * string)) (s : string) : string :=
  match s with
  | EmptyString => EmptyString
  | String c r =>
      (match find_first (fun e => Ascii.eqb (fst e) c) t with
       | Some e => String "&" (snd e)
       | None => String c ""
       end ++ escape t r)%string
  end.
Fixpoint unescape (skip : nat) (s : string) : option string :=
  match s with
  | EmptyString => Some EmptyString
  | String c r =>
      match skip with
      | S k => unescape k r
      | O => if Ascii.eqb c "&" then
               match find_first (fun e => starts_with (snd e) r) escapes with
               | Some e => option_map (String (fst e)) (unescape (String.length (snd e)) r)
               | None => None
               end
             else option_map (String c) (unescape 0 r)
      end
  end.

(** ** Writing *)
Fixpoint write_attrs (a : list (string * string)) : string :=
  match a with
  | [] => ""
  | (k, v) :: a' => (" " ++ k ++ "=" ++ quoted (escape escapes v) ++ write_attrs a')%string
  end.
Fixpoint indent (depth : nat) : string := match depth with O => String lf "" | S k => (indent k ++ "  ")%string end.
Fixpoint write_node (depth : nat) (n : xml) : string :=
  match n with
  | Text s => escape escapes_text s
  | Misc => "<!---->"
  | Elem t a [] => ("<" ++ t ++ write_attrs a ++ "/>")%string
  | Elem t a l =>
      ("<" ++ t ++ write_attrs a ++ ">"
       ++ (if forallb is_element l
           then String.concat "" (map (fun c => indent (S depth) ++ write_node (S depth) c) l) ++ indent depth
           else String.concat "" (map (write_node (S depth)) l))
       ++ "</" ++ t ++ ">")%string
  end.
Definition declaration : string := ("<?xml version=" ++ quoted "1.0" ++ " encoding=" ++ quoted "UTF-8" ++ "?>")%string.
Definition write_text (n : xml) : string := (declaration ++ indent 0 ++ write_node 0 n)%string.

(** ** Reading *)
Fixpoint span (p : ascii -> bool) (s : string) : string * string :=
  match s with
  | EmptyString => (EmptyString, EmptyString)
  | String c r => if p c then let q := span p r in (String c (fst q), snd q) else (EmptyString, s)
  end.
Definition is_space (c : ascii) : bool := existsb (Ascii.eqb c) [" "%char; tab; lf; cr].
Definition name_char (c : ascii) : bool :=
  negb (existsb (Ascii.eqb c) (["<"; ">"; "/"; "="; "&"; "'"]%char ++ [quote]) || is_space c).
Fixpoint after (mark s : string) : option string :=
  match strip_prefix mark s with
  | Some r => Some r
  | None => match s with EmptyString => None | String _ r => after mark r end
  end.
(** White space in an attribute is read as spaces. *)
Fixpoint spaces (s : string) : string :=
  match s with EmptyString => EmptyString | String c r => String (if is_space c then " "%char else c) (spaces r) end.
Fixpoint read_attrs (fuel : nat) (s : string) : option (list (string * string) * string) :=
  match fuel with
  | O => None
  | S k =>
      let s' := snd (span is_space s) in
      let q := span name_char s' in
      if str_empty (fst q) then Some ([], s')
      else match strip_prefix (String "=" (String quote "")) (snd q) with
           | None => None
           | Some r =>
               let v := span (fun c => negb (Ascii.eqb c quote)) r in
               match unescape 0 (spaces (fst v)), strip_prefix (String quote "") (snd v) with
               | Some value, Some r' =>
                   option_map (fun z => ((fst q, value) :: fst z, snd z)) (read_attrs k r')
               | _, _ => None
               end
           end
  end.
Definition then_ (x : xml) (o : option (list xml * string)) : option (list xml * string) :=
  option_map (fun z => (x :: fst z, snd z)) o.
(** Nodes up to an end tag or the end of the text. *)
Fixpoint read_nodes (fuel : nat) (s : string) : option (list xml * string) :=
  match fuel with
  | O => None
  | S k =>
      match s with
      | EmptyString => Some ([], s)
      | String c r =>
          if Ascii.eqb c "<" then
            match strip_prefix "/" r, strip_prefix "!--" r, strip_prefix "?" r with
            | Some _, _, _ => Some ([], s)
            | _, Some r', _ => match after "-->" r' with Some r2 => then_ Misc (read_nodes k r2) | None => None end
            | _, _, Some r' => match after "?>" r' with Some r2 => then_ Misc (read_nodes k r2) | None => None end
            | None, None, None =>
                let q := span name_char r in
                match read_attrs (S (String.length r)) (snd q) with
                | None => None
                | Some (a, r') =>
                    match strip_prefix "/>" r', strip_prefix ">" r' with
                    | Some r2, _ => then_ (Elem (fst q) a []) (read_nodes k r2)
                    | None, Some r2 =>
                        match read_nodes k r2 with
                        | Some (l, r3) =>
                            match strip_prefix ("</" ++ fst q ++ ">") r3 with
                            | Some r4 => then_ (Elem (fst q) a l) (read_nodes k r4)
                            | None => None
                            end
                        | None => None
                        end
                    | None, None => None
                    end
                end
            end
          else
            let q := span (fun c => negb (Ascii.eqb c "<")) s in
            match unescape 0 (fst q) with
            | Some t => then_ (Text t) (read_nodes k (snd q))
            | None => None
            end
      end
  end.
(** Line ends are read as line feeds. *)
Fixpoint line_ends (s : string) : string :=
  match s with
  | EmptyString => EmptyString
  | String c r =>
      if Ascii.eqb c cr then match strip_prefix (String lf "") r with Some _ => line_ends r | None => String lf (line_ends r) end
      else String c (line_ends r)
  end.
(** The characters XML allows; above ASCII everything. *)
Definition xml_char (c : ascii) : bool := (32 <=? byte c) || existsb (Ascii.eqb c) [tab; lf; cr].
(** At top level white space is left out. *)
Definition at_top (n : xml) : bool := match n with Text s => negb (sforall is_space s) | _ => true end.
Definition read_text (s : string) : res xml :=
  let bad := Err (EMissingTag "xml") in
  if sforall xml_char s then
    let s := line_ends s in
    let s := match strip_prefix "<?xml " s with Some r => opt_default s (after "?>" r) | None => s end in
    match read_nodes (S (String.length s)) s with
    | Some (l, EmptyString) =>
        let top := filter at_top l in
        if forallb (fun n => match n with Text _ => false | _ => true end) top && (len_N (filter is_element top) =? 1)
        then Ok (Elem "" [] top) else bad
    | _ => bad
    end
  else bad.

(** ** Trees that can be written *)
Definition is_xml_name (s : string) : bool := negb (str_empty s) && sforall (fun c => name_char c && xml_char c) s && negb (starts_with "!" s) && negb (starts_with "?" s).
(** A text without carriage returns and control characters. *)
Definition plain_text (s : string) : Prop := sforall (fun c => xml_char c && negb (Ascii.eqb c cr)) s = true.
(** An attribute may have line ends, but no tabs. *)
Definition plain_attr (s : string) : Prop := sforall (fun c => xml_char c && negb (Ascii.eqb c tab)) s = true.
(** The texts and attributes of a tree. *)
Inductive text_in : xml -> string -> Prop :=
  | ti_text s : text_in (Text s) s
  | ti_below t a l n s : In n l -> text_in n s -> text_in (Elem t a l) s.
Inductive value_in : xml -> string -> Prop :=
  | vi_here t a l k v : In (k, v) a -> value_in (Elem t a l) v
  | vi_below t a l n v : In n l -> value_in n v -> value_in (Elem t a l) v.
Definition plain_tree (n : xml) : Prop := (forall s, text_in n s -> plain_text s) /\ (forall v, value_in n v -> plain_attr v).
