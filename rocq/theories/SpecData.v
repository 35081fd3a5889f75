(** Two forms with the same contents, and the maps a form contains. *)
From Coq Require Import List NArith String Permutation.
Import ListNotations.
From Verif Require Import Serde SpecSerde.

(** Equal up to the order of the entries of maps; no map has two entries with one key. *)
Inductive same_data : data -> data -> Prop :=
  | sd_null : same_data DNull DNull
  | sd_bool b : same_data (DBool b) (DBool b)
  | sd_num n : same_data (DNum n) (DNum n)
  | sd_str s : same_data (DStr s) (DStr s)
  | sd_seq l l' : Forall2 same_data l l' -> same_data (DSeq l) (DSeq l')
  | sd_map es mid es' : NoDup (map fst es) -> Permutation es mid ->
      Forall2 (fun a b => fst a = fst b /\ same_data (snd a) (snd b)) mid es' -> same_data (DMap es) (DMap es').

(** [es] are the entries of a map inside [v]. *)
Inductive inside (es : list (string * data)) : data -> Prop :=
  | in_self : inside es (DMap es)
  | in_item v l : In v l -> inside es v -> inside es (DSeq l)
  | in_entry k v es' : In (k, v) es' -> inside es v -> inside es (DMap es').

(** A map with bit range entries on which checked arithmetic fails. *)
Definition bad_entries (es : list (string * data)) : Prop :=
  exists h l, bad_span h l /\
    ((exists t, In ("bitRange"%string, DStr t) es /\ bracketed t h l) \/
     (In ("lsb"%string, DNum l) es /\ In ("msb"%string, DNum h) es)).

(** The keys of the format. *)
Definition format_keys : list string :=
  ["vendor"; "vendorID"; "name"; "series"; "version"; "description"; "licenseText"; "cpu"; "headerSystemFilename";
   "headerDefinitionsPrefix"; "addressUnitBits"; "width"; "peripherals"; "size"; "access"; "protection"; "resetValue";
   "resetMask"; "revision"; "endian"; "mpuPresent"; "fpuPresent"; "fpuDP"; "dspPresent"; "icachePresent"; "dcachePresent";
   "itcmPresent"; "dtcmPresent"; "vtorPresent"; "nvicPrioBits"; "vendorSystickConfig"; "deviceNumInterrupts";
   "sauNumRegions"; "displayName"; "alternatePeripheral"; "groupName"; "prependToName"; "appendToName";
   "headerStructName"; "baseAddress"; "addressBlock"; "interrupt"; "registers"; "derivedFrom"; "offset"; "usage"; "value";
   "alternateCluster"; "addressOffset"; "children"; "alternateGroup"; "alternateRegister"; "datatype";
   "modifiedWriteValues"; "writeConstraint"; "readAction"; "fields"; "enumeratedValues"; "bitRange"; "bitOffset";
   "bitWidth"; "lsb"; "msb"; "dim"; "dimIncrement"; "dimIndex"; "dimName"; "dimArrayIndex"; "headerEnumName"; "values";
   "is_default"; "derived_from"; "minimum"; "maximum"; "register"; "cluster"; "writeAsRead"; "useEnumeratedValues";
   "range"]%string.
(** The keys that tell the variants of an enumeration apart. *)
Definition tag_keys : list string := ["register"; "cluster"; "writeAsRead"; "useEnumeratedValues"; "range"]%string.
(** [v'] is [v] with entries of foreign keys added to some of its maps, but not to those
    that are a variant of an enumeration. *)
Inductive padded : data -> data -> Prop :=
  | pd_same v : padded v v
  | pd_seq l l' : Forall2 padded l l' -> padded (DSeq l) (DSeq l')
  | pd_variant k v v' : padded v v' -> padded (DMap [(k, v)]) (DMap [(k, v')])
  | pd_map es es' : (forall k, In k tag_keys -> ~ In k (map fst es)) -> padded_entries es es' ->
      padded (DMap es) (DMap es')
with padded_entries : list (string * data) -> list (string * data) -> Prop :=
  | pe_end : padded_entries [] []
  | pe_keep k v v' es es' : padded v v' -> padded_entries es es' -> padded_entries ((k, v) :: es) ((k, v') :: es')
  | pe_add k v es es' : ~ In k format_keys -> padded_entries es es' -> padded_entries es ((k, v) :: es').
