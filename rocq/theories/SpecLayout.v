(** Documents that differ only in layout. *)
From Coq Require Import List NArith String Ascii Permutation.
Import ListNotations.
From Verif Require Import Xml SpecText.
Open Scope string_scope.
Open Scope list_scope.

Definition one_of (l : list string) (s : string) : bool := existsb (String.eqb s) l.

(** The children that mean something, by parent. *)
Definition property_tags := ["size"; "access"; "protection"; "resetValue"; "resetMask"].
Definition dim_tags := ["dim"; "dimIncrement"; "dimIndex"; "dimName"; "dimArrayIndex"].
Definition schema : list (string * list string) := [
  ("device", ["vendor"; "vendorID"; "name"; "series"; "version"; "description"; "licenseText"; "cpu";
              "headerSystemFilename"; "headerDefinitionsPrefix"; "addressUnitBits"; "width"; "peripherals"]
             ++ property_tags);
  ("cpu", ["name"; "revision"; "endian"; "mpuPresent"; "fpuPresent"; "fpuDP"; "dspPresent"; "icachePresent";
           "dcachePresent"; "itcmPresent"; "dtcmPresent"; "vtorPresent"; "nvicPrioBits"; "vendorSystickConfig";
           "deviceNumInterrupts"; "sauNumRegions"]);
  ("peripheral", ["name"; "displayName"; "version"; "description"; "alternatePeripheral"; "groupName";
                  "prependToName"; "appendToName"; "headerStructName"; "baseAddress"; "addressBlock";
                  "interrupt"; "registers"] ++ property_tags ++ dim_tags);
  ("addressBlock", ["offset"; "size"; "usage"; "protection"]);
  ("interrupt", ["name"; "description"; "value"]);
  ("cluster", ["name"; "description"; "alternateCluster"; "headerStructName"; "addressOffset"; "register";
               "cluster"] ++ property_tags ++ dim_tags);
  ("register", ["name"; "displayName"; "description"; "alternateGroup"; "alternateRegister"; "addressOffset";
                "dataType"; "modifiedWriteValues"; "writeConstraint"; "readAction"; "fields"]
               ++ property_tags ++ dim_tags);
  ("field", ["name"; "description"; "bitRange"; "lsb"; "msb"; "bitOffset"; "bitWidth"; "access";
             "modifiedWriteValues"; "writeConstraint"; "readAction"; "enumeratedValues"] ++ dim_tags);
  ("enumeratedValue", ["name"; "description"; "value"; "isDefault"]);
  ("range", ["minimum"; "maximum"])].
(** Parents whose element children are all items of one list, except for the tags given,
    and those among the exceptions that are looked at. *)
Definition lists : list (string * (list string * list string)) := [
  ("peripherals", ([], [])); ("registers", ([], [])); ("fields", ([], [])); ("writeConstraint", ([], []));
  ("enumeratedValues", (["name"; "usage"; "headerEnumName"], ["name"; "usage"]));
  ("dimArrayIndex", (["headerEnumName"], ["headerEnumName"]))].
Definition lookup {A} (k : string) (l : list (string * A)) : option A :=
  option_map snd (find (fun kv => String.eqb (fst kv) k) l).

(** Children of one group keep their order; children of different groups may be
    reordered; children of no group may be added or removed. Registers and clusters
    inside a cluster form one group. *)
Definition group (parent child : string) : option string :=
  match lookup parent lists with
  | Some (apart, seen) =>
      if one_of apart child then (if one_of seen child then Some child else None) else Some ""
  | None =>
      match lookup parent schema with
      | Some tags =>
          if one_of tags child
          then Some (if String.eqb child "cluster" then "register" else child)
          else None
      | None => None
      end
  end.
Definition in_group (parent g : string) (n : xml) : bool :=
  match n with
  | Elem t _ _ => match group parent t with Some h => String.eqb h g | None => false end
  | _ => false
  end.

(** Text matters only outside the parents above, and up to white space around it; in
    bitRange white space matters. An empty text is no text. *)
Definition structured (t : string) : bool := one_of (map fst schema ++ map fst lists) t.
Definition leading (l : list xml) : option string := match l with Text s :: _ => Some s | _ => None end.
Inductive same_text (t : string) : option string -> option string -> Prop :=
  | st_equal o : same_text t o o
  | st_empty : same_text t (Some "") None
  | st_empty' : same_text t None (Some "")
  | st_spaces s s' r : t <> "bitRange" -> s <> "" -> s' <> "" -> trimmed s r -> trimmed s' r ->
      same_text t (Some s) (Some s').

Inductive same_layout : xml -> xml -> Prop :=
  | sl_elem t a a' l l' :
      Permutation a a' -> NoDup (map fst a) ->
      (structured t = false -> same_text t (leading l) (leading l')) ->
      (forall g, Forall2 same_layout (filter (in_group t g) l) (filter (in_group t g) l')) ->
      same_layout (Elem t a l) (Elem t a' l').
