(** The order in which the CMSIS-SVD format wants the children of its elements (C74). *)
From Coq Require Import List String.
Import ListNotations.
From Verif Require Import Xml.
Open Scope string_scope.
Open Scope list_scope.

(** Some of a list of names: once, at most once, any number of times, at least once. *)
Inductive times := Once | AtMostOnce | Often | OnceOrMore.
Definition content_model := list (list string * times).
Inductive follows : content_model -> list string -> Prop :=
  | fo_end : follows [] []
  | fo_once ts t s l : In t ts -> follows s l -> follows ((ts, Once) :: s) (t :: l)
  | fo_absent ts s l : follows s l -> follows ((ts, AtMostOnce) :: s) l
  | fo_present ts t s l : In t ts -> follows s l -> follows ((ts, AtMostOnce) :: s) (t :: l)
  | fo_no_more ts s l : follows s l -> follows ((ts, Often) :: s) l
  | fo_more ts t s l : In t ts -> follows ((ts, Often) :: s) l -> follows ((ts, Often) :: s) (t :: l)
  | fo_first ts t s l : In t ts -> follows ((ts, Often) :: s) l -> follows ((ts, OnceOrMore) :: s) (t :: l).

Definition one (t : string) : content_model := [([t], Once)].
Definition opt (t : string) : content_model := [([t], AtMostOnce)].
Definition properties : content_model := opt "size" ++ opt "access" ++ opt "protection" ++ opt "resetValue" ++ opt "resetMask".
Definition dimensions : content_model := one "dim" ++ one "dimIncrement" ++ opt "dimIndex" ++ opt "dimName" ++ opt "dimArrayIndex".
Definition arrayable (t : string) (s : content_model) : list (string * content_model) := [(t, s); (t, dimensions ++ s)].
Definition field_with (bits : content_model) : list (string * content_model) :=
  arrayable "field"
    (one "name" ++ opt "description" ++ bits ++ opt "access" ++ opt "modifiedWriteValues" ++ opt "writeConstraint"
     ++ opt "readAction" ++ [(["enumeratedValues"], Often)]).
(** The elements that hold elements, with the sequences allowed in them. *)
Definition contents : list (string * content_model) :=
  [("device",
     opt "vendor" ++ opt "vendorID" ++ one "name" ++ opt "series" ++ one "version" ++ one "description" ++ opt "licenseText"
     ++ opt "cpu" ++ opt "headerSystemFilename" ++ opt "headerDefinitionsPrefix" ++ one "addressUnitBits" ++ one "width"
     ++ properties ++ one "peripherals");
   ("cpu",
     one "name" ++ one "revision" ++ one "endian" ++ one "mpuPresent" ++ one "fpuPresent" ++ opt "fpuDP" ++ opt "dspPresent"
     ++ opt "icachePresent" ++ opt "dcachePresent" ++ opt "itcmPresent" ++ opt "dtcmPresent" ++ opt "vtorPresent"
     ++ one "nvicPrioBits" ++ one "vendorSystickConfig" ++ opt "deviceNumInterrupts" ++ opt "sauNumRegions");
   ("peripherals", [(["peripheral"], Often)]);
   ("addressBlock", one "offset" ++ one "size" ++ one "usage" ++ opt "protection");
   ("interrupt", one "name" ++ opt "description" ++ one "value");
   ("registers", [(["register"; "cluster"], Often)]);
   ("fields", [(["field"], OnceOrMore)]);
   ("writeConstraint", [(["writeAsRead"; "useEnumeratedValues"; "range"], Once)]);
   ("range", one "minimum" ++ one "maximum");
   ("enumeratedValues", opt "name" ++ opt "usage" ++ [(["enumeratedValue"], Often)]);
   ("enumeratedValue", one "name" ++ opt "description" ++ opt "value" ++ opt "isDefault");
   ("dimArrayIndex", opt "headerEnumName" ++ [(["enumeratedValue"], Often)])]
  ++ arrayable "peripheral"
       (one "name" ++ opt "displayName" ++ opt "version" ++ opt "description" ++ opt "alternatePeripheral" ++ opt "groupName"
        ++ opt "prependToName" ++ opt "appendToName" ++ opt "headerStructName" ++ one "baseAddress" ++ properties
        ++ [(["addressBlock"], Often)] ++ [(["interrupt"], Often)] ++ opt "registers")
  ++ arrayable "cluster"
       (one "name" ++ opt "description" ++ opt "alternateCluster" ++ opt "headerStructName" ++ one "addressOffset" ++ properties
        ++ [(["register"; "cluster"], Often)])
  ++ arrayable "register"
       (one "name" ++ opt "displayName" ++ opt "description" ++ opt "alternateGroup" ++ opt "alternateRegister" ++ one "addressOffset"
        ++ properties ++ opt "dataType" ++ opt "modifiedWriteValues" ++ opt "writeConstraint" ++ opt "readAction" ++ opt "fields")
  ++ field_with (one "bitRange") ++ field_with (one "lsb" ++ one "msb") ++ field_with (one "bitOffset" ++ one "bitWidth").
(** The attributes of an element. *)
Definition attributes_of (t : string) (a : list (string * string)) : Prop :=
  (t = "device" /\ map fst a = ["schemaVersion"; "xmlns:xs"; "xs:noNamespaceSchemaLocation"]) \/
  (In t ["peripheral"; "cluster"; "register"; "field"; "enumeratedValues"] /\ map fst a = ["derivedFrom"]) \/
  (t <> "device" /\ a = []).

Definition name_of (n : xml) : string := match n with Elem t _ _ => t | _ => "" end.
(** A document in order: other elements hold a text. *)
Inductive in_order : xml -> Prop :=
  | io_text t s : ~ In t (map fst contents) -> in_order (Elem t [] [Text s])
  | io_elem t a s l : In (t, s) contents -> attributes_of t a -> follows s (map name_of l) -> Forall in_order l ->
      in_order (Elem t a l).
