(** What a parse error says about the node it names (C71) and the path of nodes to it
    (C72), independently of the parser. *)
From Coq Require Import List NArith String Ascii.
Import ListNotations.
From Verif Require Import Base Types Xml SpecNum SpecArray SpecText SpecXml SpecValidate SpecParse.
Open Scope N_scope.
Open Scope list_scope.

Definition an_element (n : xml) : Prop := exists t a l, n = Elem t a l.
(** The first attribute [k]; none. *)
Definition attribute (k : string) (n : xml) (s : string) : Prop :=
  exists t a l before after, n = Elem t a l /\ a = before ++ (k, s) :: after /\ Forall (fun kv => fst kv <> k) before.
Definition no_attribute (k : string) (n : xml) : Prop := forall t a l, n = Elem t a l -> Forall (fun kv => fst kv <> k) a.
(** The first child [k] holds the text [s], or a number; it is absent or empty; it has no
    elements in it. *)
Definition says (k : string) (n : xml) (s : string) : Prop := exists c, first_child k n c /\ content c s.
Definition counts (bound : N) (k : string) (n : xml) (v : N) : Prop := exists c, first_child k n c /\ number bound c v.
Definition silent (k : string) (n : xml) : Prop := no_child k n \/ exists c, first_child k n c /\ forall s, ~ content c s.
Definition hollow (n : xml) : Prop := forall t a l, n = Elem t a l -> Forall (fun c => ~ an_element c) l.
(** An element [k] whose text [s] is none of a list. *)
Definition none_of (k : string) (texts : list string) (s : string) (n : xml) : Prop :=
  named k n /\ content n s /\ ~ In s texts.
(** The elements that hold a number of up to 32 bits, of up to 64 bits, a boolean, one of a list
    of texts. *)
Definition numbers32 : list string :=
  ["size"; "dim"; "dimIncrement"; "addressOffset"; "offset"; "value"; "nvicPrioBits"; "deviceNumInterrupts";
   "sauNumRegions"; "addressUnitBits"; "width"]%string.
Definition numbers64 : list string := ["resetValue"; "resetMask"; "baseAddress"; "minimum"; "maximum"]%string.
Definition booleans : list string :=
  ["writeAsRead"; "useEnumeratedValues"; "mpuPresent"; "fpuPresent"; "fpuDP"; "dspPresent"; "icachePresent"; "dcachePresent";
   "itcmPresent"; "dtcmPresent"; "vtorPresent"; "vendorSystickConfig"]%string.
Definition choices : list string :=
  ["access"; "protection"; "usage"; "dataType"; "modifiedWriteValues"; "readAction"; "endian"; "dimIndex"]%string.
(** The number in element [t] must be below [b]. (A value is limited to 32 bits in an interrupt only.) *)
Definition limit (t : string) (b : N) : Prop :=
  (In t numbers64 /\ b = 2 ^ 64) \/ (In t numbers32 /\ b = 2 ^ 32) \/ (t = "value"%string /\ b = 2 ^ 64).
(** The children an element must have; arrays have a dimension. *)
Definition must_have : list (string * list string) :=
  [("device", ["name"; "peripherals"]);
   ("cpu", ["name"; "revision"; "endian"; "mpuPresent"; "fpuPresent"; "nvicPrioBits"; "vendorSystickConfig"]);
   ("peripheral", ["name"; "baseAddress"]);
   ("addressBlock", ["offset"; "size"; "usage"]);
   ("interrupt", ["name"; "value"]);
   ("cluster", ["name"; "addressOffset"]);
   ("register", ["name"; "addressOffset"]);
   ("field", ["name"]);
   ("enumeratedValue", ["name"]);
   ("range", ["minimum"; "maximum"])]%string.
Definition needs (n : xml) (k : string) : Prop :=
  (exists t ks, named t n /\ In (t, ks) must_have /\ In k ks) \/
  (k = "dim"%string /\ ~ no_child "dimIncrement" n /\ exists t, named t n /\ In t ["peripheral"; "cluster"; "register"; "field"]%string).
(** The width of a field as written. *)
Definition wide (n : xml) (w : N) : Prop :=
  (exists o, written_size n o w) \/ (exists t msb lsb, written_ends n msb lsb t /\ lsb <= msb /\ w = msb - lsb + 1).
(** Names the schema does not allow: the tag they are given in. *)
Inductive misnamed (n : xml) : string -> string -> Prop :=
  | mn_values s : named "enumeratedValue" n \/ named "enumeratedValues" n -> says "name" n s -> ~ plain_name s -> misnamed n s "name"
  | mn_name s k : In k ["field"; "register"; "cluster"; "peripheral"]%string -> named k n -> says "name" n s ->
      ~ arrayable_name s -> misnamed n s "name"
  | mn_group s : named "register" n -> says "alternateGroup" n s -> ~ plain_name s -> misnamed n s "alternateGroup"
  | mn_alternate s : named "register" n -> says "alternateRegister" n s -> ~ arrayable_name s -> misnamed n s "alternateRegister"
  | mn_origin s : named "peripheral" n -> attribute "derivedFrom" n s -> ~ arrayable_name s -> misnamed n s "derivedFrom"
  | mn_path s k path pieces : In k ["enumeratedValues"; "field"; "register"; "cluster"]%string -> named k n ->
      attribute "derivedFrom" n path -> cut "." path pieces -> In s pieces -> ~ arrayable_name s -> misnamed n s "derivedFrom".
(** [v] is the value of an enumerated value of a field; [lo] to [hi] is its write constraint. *)
Definition enumerates (n : xml) (v : N) : Prop :=
  exists es e, In es (children n) /\ named "enumeratedValues" es /\ In e (children es) /\ named "enumeratedValue" e /\
    counts (2 ^ 64) "value" e v.
Definition constrains (n : xml) (lo hi : N) : Prop :=
  exists c r, first_child "writeConstraint" n c /\ first_child "range" c r /\
    counts (2 ^ 64) "minimum" r lo /\ counts (2 ^ 64) "maximum" r hi.

(** A set of enumerated values for reading, for writing; one whose source is elsewhere may be
    either. A field has one of each and no more. *)
Definition for_read (n : xml) : Prop := (exists s, attribute "derivedFrom" n s) \/ says "usage" n "read".
Definition for_write (n : xml) : Prop := (exists s, attribute "derivedFrom" n s) \/ says "usage" n "write".
Definition pair_of_values (n x y : xml) : Prop :=
  exists t a l1 l2 l3, n = Elem t a (l1 ++ x :: l2 ++ y :: l3) /\ named "enumeratedValues" x /\ named "enumeratedValues" y /\
    Forall (fun c => ~ named "enumeratedValues" c) (l1 ++ l2 ++ l3).
Definition parted (n : xml) : Prop :=
  exists x y, pair_of_values n x y /\ ((for_read x /\ for_write y) \/ (for_read y /\ for_write x)).

(** [fault l e n]: error [e] is true of the node [n], and one that level [l] looks for. *)
Definition fault (l : level) (e : err) (n : xml) : Prop :=
  match e with
  | EMissingTag k => needs n k /\ silent k n
  | EEmptyTag k => In k (numbers32 ++ numbers64 ++ booleans ++ choices) /\ named k n /\ forall s, ~ content n s
  | EParseInt k => exists t a c s, n = Elem t a c /\ content n s /\ In t (numbers32 ++ numbers64) /\
      match k with
      | IEmpty => nothing_to_read s
      | IInvalidDigit => exists b, limit t b /\ stray_character b s
      | IPosOverflow => exists b, limit t b /\ too_many_digits b s
      end
  | EInvalidBool s => (exists k, named k n /\ In k booleans) /\ content n s /\ ~ In s ["0"; "1"; "true"; "false"]%string
  | ENotExpectedTag k => In k ["enumeratedValue"; "field"; "peripheral"]%string /\ an_element n /\ ~ named k n
  | EInvalidRegisterCluster k => named k n /\ k <> "register"%string /\ k <> "cluster"%string
  (* texts *)
  | EUnknownAccess s => none_of "access" ["read-only"; "read-write"; "read-writeOnce"; "write-only"; "writeOnce"]%string s n
  | EUnknownUsage => exists s, none_of "usage" ["read"; "write"; "read-write"]%string s n
  | EUnknownAbUsage => exists s, none_of "usage" ["registers"; "buffer"; "reserved"]%string s n
  | EUnknownEndian s => none_of "endian" ["little"; "big"; "selectable"; "other"]%string s n
  | EUnknownReadAction s => none_of "readAction" ["clear"; "set"; "modify"; "modifyExternal"]%string s n
  | EUnknownProtection s => none_of "protection" ["s"; "n"; "p"]%string s n
  | EUnknownMwv s => none_of "modifiedWriteValues" ["oneToClear"; "oneToSet"; "oneToToggle"; "zeroToClear"; "zeroToSet";
      "zeroToToggle"; "clear"; "set"; "modify"]%string s n
  | EUnknownDataType s => none_of "dataType" ["uint8_t"; "uint16_t"; "uint32_t"; "uint64_t"; "int8_t"; "int16_t"; "int32_t"; "int64_t";
      "uint8_t *"; "uint16_t *"; "uint32_t *"; "uint64_t *"; "int8_t *"; "int16_t *"; "int32_t *"; "int64_t *"]%string s n
  (* arrays *)
  | EDimIndexParse => named "dimIndex" n /\ exists s, content n s /\ forall idx, ~ index_list s idx
  | EIncorrectDimIndexesCount d c =>
      counts (2 ^ 32) "dim" n d /\ d <> c /\
      exists s idx, says "dimIndex" n s /\ index_list s idx /\ N.of_nat (List.length idx) = c
  | EMissingPlaceholder s t => In t ["peripheral"; "cluster"; "register"; "field"]%string /\ named t n /\ ~ no_child "dimIncrement" n /\ says "name" n s /\ ~ has_placeholder s
  (* write constraints *)
  | EMoreThanOneWriteConstraint => named "writeConstraint" n /\
      exists t a l1 x l2 y l3, n = Elem t a (l1 ++ x :: l2 ++ y :: l3) /\ an_element x /\ an_element y
  | EUnknownWriteConstraint => named "writeConstraint" n /\
      exists k c, In c (children n) /\ named k c /\ ~ In k ["writeAsRead"; "useEnumeratedValues"; "range"]%string
  | EWcReversedRange lo hi => checked l /\ named "field" n /\ constrains n lo hi /\ hi < lo
  | EWcOutOfRange v start end_ => checked l /\ named "field" n /\ start = 0 /\ end_ <= v /\
      (exists w, wide n w /\ w < 64 /\ end_ = 2 ^ w) /\ exists lo hi, constrains n lo hi /\ (v = lo \/ v = hi)
  (* bit ranges *)
  | EInvalidBitRangeEmpty => named "field" n /\ exists c, first_child "bitRange" n c /\ forall s, ~ node_text c s
  | EInvalidBitRangeSize => named "field" n /\ exists t msb lsb, written_ends n msb lsb t /\ msb < lsb
  | EInvalidBitRangeMsbLsb => named "field" n /\ no_child "bitRange" n /\ ~ no_child "msb" n /\ ~ no_child "lsb" n /\
      (forall msb lsb t, ~ written_ends n msb lsb t)
  | EInvalidBitRangeParse | EInvalidBitRangeSyntax => named "field" n /\
      (forall msb lsb t, ~ written_ends n msb lsb t) /\ (forall o w, ~ written_size n o w)
  | EZeroWidth => checked l /\ named "field" n /\
      ((exists o, written_size n o 0) \/ (exists t, written_ends n 4294967295 0 t))
  (* enumerated values *)
  | EEvAbsentValue => checked l /\ named "enumeratedValue" n /\ no_child "value" n /\
      forall s, says "isDefault" n s -> ~ In s ["1"; "true"]%string
  | EEvValueAndDefault v => l = Strict /\ named "enumeratedValue" n /\ (exists x, v = Some x /\ counts (2 ^ 64) "value" n x) /\
      exists s, says "isDefault" n s /\ In s ["1"; "true"]%string
  | EEvsEmpty => checked l /\ named "enumeratedValues" n /\ no_attribute "derivedFrom" n /\ no_child "enumeratedValue" n
  | EEvOutOfRange v start end_ => checked l /\ named "field" n /\ start = 0 /\ end_ <= v /\
      (exists w, wide n w /\ w < 64 /\ end_ = 2 ^ w) /\ enumerates n v
  | EIncompatibleUsages => l = Strict /\ named "field" n /\ ~ parted n /\
      exists t a l1 x l2 y l3, n = Elem t a (l1 ++ x :: l2 ++ y :: l3) /\ named "enumeratedValues" x /\ named "enumeratedValues" y
  (* properties *)
  | EValueTooLarge v s => checked l /\ counts (2 ^ 32) "size" n s /\ counts (2 ^ 64) "resetValue" n v /\ 2 ^ s <= v
  | EMaskTooLarge k s => l = Strict /\ counts (2 ^ 32) "size" n s /\ counts (2 ^ 64) "resetMask" n k /\ 2 ^ s <= k
  | EMaskConflict v k => l = Strict /\ counts (2 ^ 64) "resetValue" n v /\ counts (2 ^ 64) "resetMask" n k /\
      exists i, N.testbit v i = true /\ N.testbit k i = false
  (* names, and elements without content *)
  | EName s k => l = Strict /\ misnamed n s k
  | EEmptyRegisters => l = Strict /\ named "peripheral" n /\ no_attribute "derivedFrom" n /\
      exists c, first_child "registers" n c /\ hollow c
  | EEmptyCluster => l = Strict /\ named "cluster" n /\ no_attribute "derivedFrom" n /\ no_child "register" n /\ no_child "cluster" n
  | EEmptyFields => l = Strict /\ named "register" n /\ no_attribute "derivedFrom" n /\ exists c, first_child "fields" n c /\ hollow c
  | EEmptyDevice => checked l /\ named "device" n /\ exists c, first_child "peripherals" n c /\ hollow c
  | EUninitialized k => l = Strict /\ named "device" n /\
      In k ["version"; "description"; "addressUnitBits"; "width"]%string /\ silent k n
  (* never from the parser *)
  | ESelfDerived _ _ | ENotFound _ _ | EDeserialize => False
  end.

(** ** The nodes on the way down to a node, both ends included *)
Inductive trail : xml -> list nat -> list xml -> Prop :=
  | tr_here n : trail n [] [n]
  | tr_down t a l i c w ns : nth_error l i = Some c -> trail c w ns -> trail (Elem t a l) (i :: w) (Elem t a l :: ns).
(** The line about an enclosing element; only these kinds have one. *)
Definition mentionable : list string := ["device"; "peripheral"; "register"; "field"; "enumeratedValue"; "interrupt"]%string.
Inductive mentions : xml -> string -> Prop :=
  | me_named k n c s : In k mentionable -> named k n -> first_child "name" n c -> node_text c s ->
      mentions n ("In " ++ k ++ " `" ++ s ++ "`")%string
  | me_unknown k n : In k mentionable -> named k n -> (no_child "name" n \/ exists c, first_child "name" n c /\ forall s, ~ node_text c s) ->
      mentions n ("In unknown " ++ k)%string.
(** The lines about a list of elements, in order. *)
Inductive mentioned : list xml -> list string -> Prop :=
  | ms_nil : mentioned [] []
  | ms_line n line ns lines : mentions n line -> mentioned ns lines -> mentioned (n :: ns) (line :: lines)
  | ms_skip n ns lines : (forall k, In k mentionable -> ~ named k n) -> mentioned ns lines -> mentioned (n :: ns) lines.
(** The line about the element itself; [where_] is its position in the text. *)
Inductive introduces (where_ : string) : xml -> string -> Prop :=
  | in_named k n c s : k <> ""%string -> named k n -> first_child "name" n c -> node_text c s ->
      introduces where_ n ("Parsing " ++ k ++ " `" ++ s ++ "` at " ++ where_)%string
  | in_unknown k n : k <> ""%string -> named k n ->
      (no_child "name" n \/ exists c, first_child "name" n c /\ forall s, ~ node_text c s) ->
      introduces where_ n ("Parsing unknown " ++ k ++ " at " ++ where_)%string
  | in_bare n : (forall k, named k n -> k = ""%string) -> introduces where_ n ("at " ++ where_)%string.
