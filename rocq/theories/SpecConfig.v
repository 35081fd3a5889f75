(** The encoder's configuration as named options with values, and the texts of the
    values, independently of the code that updates it. *)
From Coq Require Import List NArith String Ascii.
Import ListNotations.
From Verif Require Import Types Num Config SpecArray.
Open Scope string_scope.

Inductive kind := KName | KNumber | KOrder | KRcOrder | KBits.
Inductive cfg_value :=
  | VName (f : option id_format)
  | VNumber (f : number_format)
  | VOrder (s : derivable_sorting)
  | VRcOrder (s : rc_sorting)
  | VBits (t : option bit_range_type).

(** Every option: name, kind, value. *)
Definition options : list (string * kind * (config -> cfg_value)) :=
  [("peripheral_name", KName, fun c => VName (cfg_peripheral_name c));
   ("peripheral_base_address", KNumber, fun c => VNumber (cfg_peripheral_base_address c));
   ("peripheral_sorting", KOrder, fun c => VOrder (cfg_peripheral_sorting c));
   ("address_block_offset", KNumber, fun c => VNumber (cfg_address_block_offset c));
   ("address_block_size", KNumber, fun c => VNumber (cfg_address_block_size c));
   ("interrupt_name", KName, fun c => VName (cfg_interrupt_name c));
   ("cluster_name", KName, fun c => VName (cfg_cluster_name c));
   ("cluster_address_offset", KNumber, fun c => VNumber (cfg_cluster_address_offset c));
   ("register_cluster_sorting", KRcOrder, fun c => VRcOrder (cfg_register_cluster_sorting c));
   ("register_name", KName, fun c => VName (cfg_register_name c));
   ("register_address_offset", KNumber, fun c => VNumber (cfg_register_address_offset c));
   ("register_size", KNumber, fun c => VNumber (cfg_register_size c));
   ("register_reset_value", KNumber, fun c => VNumber (cfg_register_reset_value c));
   ("register_reset_mask", KNumber, fun c => VNumber (cfg_register_reset_mask c));
   ("field_name", KName, fun c => VName (cfg_field_name c));
   ("field_bit_range", KBits, fun c => VBits (cfg_field_bit_range c));
   ("field_sorting", KOrder, fun c => VOrder (cfg_field_sorting c));
   ("enumerated_values_name", KName, fun c => VName (cfg_enumerated_values_name c));
   ("enumerated_value_name", KName, fun c => VName (cfg_enumerated_value_name c));
   ("enumerated_value_value", KNumber, fun c => VNumber (cfg_enumerated_value_value c));
   ("dim_dim", KNumber, fun c => VNumber (cfg_dim_dim c));
   ("dim_increment", KNumber, fun c => VNumber (cfg_dim_increment c));
   ("dim_array_index_header_enum_name", KName, fun c => VName (cfg_dim_array_index_header_enum_name c))].
Definition option_kind (name : string) (k : kind) : Prop := exists g, In (name, k, g) options.
Definition option_of (c : config) (name : string) (v : cfg_value) : Prop :=
  exists k g, In (name, k, g) options /\ v = g c.

(** Which order a comma separated list of keywords asks for: the first of Offset,
    OffsetReversed, Name that occurs. *)
Inductive sort_keyword (ps : list string) : option sorting -> Prop :=
  | sk_offset : In "Offset" ps -> sort_keyword ps (Some ByOffset)
  | sk_reversed : ~ In "Offset" ps -> In "OffsetReversed" ps -> sort_keyword ps (Some ByOffsetReversed)
  | sk_name : ~ In "Offset" ps -> ~ In "OffsetReversed" ps -> In "Name" ps -> sort_keyword ps (Some ByName)
  | sk_none : ~ In "Offset" ps -> ~ In "OffsetReversed" ps -> ~ In "Name" ps -> sort_keyword ps None.
Inductive derivable_keyword (ps : list string) : derivable_sorting -> Prop :=
  | dk_last s : In "DerivedLast" ps -> sort_keyword ps s -> derivable_keyword ps (DeriveLast s)
  | dk_unchanged s : ~ In "DerivedLast" ps -> sort_keyword ps s -> derivable_keyword ps (Unchanged s).
Inductive rc_keyword (ps : list string) : rc_sorting -> Prop :=
  | rk_registers s : In "RegistersFirst" ps -> derivable_keyword ps s -> rc_keyword ps (RegistersFirst s)
  | rk_clusters s : ~ In "RegistersFirst" ps -> In "ClustersFirst" ps -> derivable_keyword ps s ->
      rc_keyword ps (ClustersFirst s)
  | rk_unchanged s : ~ In "RegistersFirst" ps -> ~ In "ClustersFirst" ps -> derivable_keyword ps s ->
      rc_keyword ps (RcUnchanged s).

(** The value a text denotes for an option of a kind. *)
Inductive denotes (t : string) : kind -> cfg_value -> Prop :=
  | dn_name f : In (t, f) [("Camel", Camel); ("Pascal", Pascal); ("Snake", Snake); ("Constant", Constant)] ->
      denotes t KName (VName (Some f))
  | dn_number f :
      In (t, f) [("UpperHex", UpperHex); ("UpperHex8", UpperHex8); ("UpperHex16", UpperHex16);
                 ("LowerHex", LowerHex); ("LowerHex8", LowerHex8); ("LowerHex16", LowerHex16);
                 ("Dec", Dec); ("Bin", Bin)] ->
      denotes t KNumber (VNumber f)
  | dn_bits f :
      In (t, f) [("BitRange", BRT_BitRange); ("OffsetWidth", BRT_OffsetWidth); ("MsbLsb", BRT_MsbLsb)] ->
      denotes t KBits (VBits (Some f))
  | dn_order ps s : cut "," t ps -> derivable_keyword ps s -> denotes t KOrder (VOrder s)
  | dn_rc_order ps s : cut "," t ps -> rc_keyword ps s -> denotes t KRcOrder (VRcOrder s).
