(** What is written in an XML tree, independently of the code's accessors. *)
From Coq Require Import List NArith String Ascii.
Import ListNotations.
From Verif Require Import Types Xml SpecNum SpecArray SpecText.
Open Scope N_scope.
Open Scope list_scope.

(** [c] is the first child element of [n] named [k]; there is none. *)
Definition named (k : string) (c : xml) : Prop := exists a l, c = Elem k a l.
Definition first_child (k : string) (n c : xml) : Prop :=
  exists t a pre post, n = Elem t a (pre ++ c :: post) /\ named k c /\ Forall (fun x => ~ named k x) pre.
Definition no_child (k : string) (n : xml) : Prop :=
  forall t a l, n = Elem t a l -> Forall (fun x => ~ named k x) l.

(** The text directly after the start tag; the same without surrounding white space. *)
Definition node_text (n : xml) (s : string) : Prop :=
  exists t a rest, n = Elem t a (Text s :: rest) /\ s <> ""%string.
Definition content (n : xml) (s : string) : Prop := exists t, node_text n t /\ trimmed t s.
(** [n] holds a number below [bound]. *)
Definition number (bound : N) (n : xml) (v : N) : Prop :=
  exists s, content n s /\ number_text s v /\ v < bound.

(** The most and least significant bits written in an element, in the notation that
    takes precedence. In [[msb:lsb]] anything after a second colon is ignored. *)
Inductive written_ends (n : xml) (msb lsb : N) : bit_range_type -> Prop :=
  | we_bit_range r body a b rest :
      first_child "bitRange" n r -> node_text r ("[" ++ body ++ "]")%string -> cut ":" body (a :: b :: rest) ->
      signed (digits_with (digit 10) 10) a msb -> signed (digits_with (digit 10) 10) b lsb ->
      msb < 2 ^ 32 -> lsb < 2 ^ 32 -> written_ends n msb lsb BRT_BitRange
  | we_msb_lsb h l :
      no_child "bitRange" n -> first_child "msb" n h -> first_child "lsb" n l ->
      number (2 ^ 32) h msb -> number (2 ^ 32) l lsb -> written_ends n msb lsb BRT_MsbLsb.
(** The offset and width written in an element. *)
Definition written_size (n : xml) (offset width : N) : Prop :=
  no_child "bitRange" n /\ (no_child "lsb" n \/ no_child "msb" n) /\
  exists o w, first_child "bitOffset" n o /\ first_child "bitWidth" n w /\
    number (2 ^ 32) o offset /\ number (2 ^ 32) w width.
