(** C49: updating the encoder's configuration from texts. *)
From Verif Require Import Base BaseFacts Num Types Config SpecArray SpecConfig ConfigProofs ArrayProofs.

(** Updating a known option succeeds exactly when the text denotes a value of the
    option's kind, sets that option to the value and leaves every other option. *)
Theorem C49_known : forall c name k value c', option_kind name k ->
  (update c name value = Ok c' <->
   exists v, denotes value k v /\ option_of c' name v /\
     forall other w, other <> name -> (option_of c' other w <-> option_of c other w)).
Proof.
  intros c name k value c' [g G].
  destruct (update_cases c name value k g G) as [(v & d & P & U & V & F)|(P & U)]; rewrite U.
  - split.
    + intros E. injection E as <-. exists v. split; [now apply value_parse_spec|]. split; [now exists k, g|].
      intros o w N. split; intros (k' & g' & I & ->); exists k', g'; split; auto; [|symmetry]; now apply (F o k').
    + intros (v' & D & (k' & g' & I & ->) & F'). apply value_parse_spec in D. rewrite P in D. injection D as ->.
      destruct (options_fun _ _ _ _ _ G I) as [<- <-].
      f_equal. apply options_ext. intros o w (k2 & g2 & I2 & ->).
      destruct (string_dec o name) as [->|N].
      * destruct (options_fun _ _ _ _ _ G I2) as [<- <-]. exists k, g. auto.
      * apply (F' o); [exact N|]. exists k2, g2. split; auto. now apply (F o k2).
  - split; [discriminate|]. intros (v' & D & _). apply value_parse_spec in D. congruence.
Qed.
Print Assumptions C49_known.

(** A text that denotes no value is refused by a panic, and nothing else panics. *)
Theorem C49_panic : forall c name value,
  update c name value = Panic Unwrap <->
  exists k, option_kind name k /\ forall v, ~ denotes value k v.
Proof.
  intros c name value. split.
  - intros U. destruct (in_dec string_dec name (map (fun o => fst (fst o)) options)) as [I|N].
    + apply in_map_iff in I as ([[n k] g] & <- & I). exists k. split; [now exists g|].
      destruct (update_cases c n value k g I) as [(v & d & P & U' & _)|(P & _)]; cbn [fst] in U; [congruence|].
      intros v D. apply value_parse_spec in D. congruence.
    + rewrite update_unknown in U; [discriminate|]. intros k [g I]. apply N.
      exact (in_map (fun o => fst (fst o)) _ _ I).
  - intros (k & [g G] & D). destruct (update_cases c name value k g G) as [(v & d & P & _)|(_ & U)]; [|exact U].
    apply value_parse_spec in P. now destruct (D v).
Qed.
Print Assumptions C49_panic.

(** An unknown option name changes nothing, whatever the text. *)
Theorem C49_unknown : forall c name value,
  (forall k, ~ option_kind name k) -> update c name value = Ok c.
Proof. exact update_unknown. Qed.
Print Assumptions C49_unknown.

(** The table is the whole configuration: configurations with the same options are equal. *)
Theorem C49_options : forall c c',
  (forall name v, option_of c name v -> option_of c' name v) -> c = c'.
Proof. exact options_ext. Qed.
Print Assumptions C49_options.

(** Every text is an order: sorting options never panic. *)
Theorem C49_order_total : forall c name k value,
  option_kind name k -> k = KOrder \/ k = KRcOrder -> exists c', update c name value = Ok c'.
Proof.
  intros c name k value [g G] K.
  destruct (update_cases c name value k g G) as [(v & d & P & U & _)|(P & _)]; [eauto|].
  destruct K as [-> | ->]; discriminate.
Qed.
Print Assumptions C49_order_total.

(** The defaults neither rename nor reorder anything and keep the notation of bit ranges;
    the number formats are those of this table. *)
Definition number_defaults : list (string * number_format) :=
  [("peripheral_base_address", UpperHex8); ("address_block_offset", UpperHex); ("address_block_size", UpperHex); ("cluster_address_offset", UpperHex); ("register_address_offset", UpperHex); ("register_size", LowerHex); ("register_reset_value", UpperHex16); ("register_reset_mask", UpperHex16); ("enumerated_value_value", Dec); ("dim_dim", Dec); ("dim_increment", UpperHex)].
Theorem C49_default : forall name v, option_of config_default name v ->
  match v with
  | VName o => o = None
  | VBits o => o = None
  | VOrder o => o = Unchanged None
  | VRcOrder o => o = RcUnchanged (Unchanged None)
  | VNumber f => In (name, f) number_defaults
  end.
Proof.
  intros name v (k & g & I & ->). cbn in I.
  repeat (destruct I as [I|I]; [injection I as <- <- <-; cbn; tauto|]). destruct I.
Qed.
Print Assumptions C49_default.
(** Each setter method sets its option and no other. *)
Definition sets (c : config) (name : string) (v : cfg_value) (c' : config) : Prop :=
  option_of c' name v /\ forall other w, other <> name -> (option_of c' other w <-> option_of c other w).
Theorem C49_setters : forall c,
  (forall v, sets c "peripheral_name" (VName v) (set_peripheral_name v c)) /\
  (forall v, sets c "peripheral_base_address" (VNumber v) (set_peripheral_base_address v c)) /\
  (forall v, sets c "peripheral_sorting" (VOrder v) (set_peripheral_sorting v c)) /\
  (forall v, sets c "address_block_offset" (VNumber v) (set_address_block_offset v c)) /\
  (forall v, sets c "address_block_size" (VNumber v) (set_address_block_size v c)) /\
  (forall v, sets c "interrupt_name" (VName v) (set_interrupt_name v c)) /\
  (forall v, sets c "cluster_name" (VName v) (set_cluster_name v c)) /\
  (forall v, sets c "cluster_address_offset" (VNumber v) (set_cluster_address_offset v c)) /\
  (forall v, sets c "register_cluster_sorting" (VRcOrder v) (set_register_cluster_sorting v c)) /\
  (forall v, sets c "register_name" (VName v) (set_register_name v c)) /\
  (forall v, sets c "register_address_offset" (VNumber v) (set_register_address_offset v c)) /\
  (forall v, sets c "register_size" (VNumber v) (set_register_size v c)) /\
  (forall v, sets c "register_reset_value" (VNumber v) (set_register_reset_value v c)) /\
  (forall v, sets c "register_reset_mask" (VNumber v) (set_register_reset_mask v c)) /\
  (forall v, sets c "field_name" (VName v) (set_field_name v c)) /\
  (forall v, sets c "field_bit_range" (VBits v) (set_field_bit_range v c)) /\
  (forall v, sets c "field_sorting" (VOrder v) (set_field_sorting v c)) /\
  (forall v, sets c "enumerated_values_name" (VName v) (set_enumerated_values_name v c)) /\
  (forall v, sets c "enumerated_value_name" (VName v) (set_enumerated_value_name v c)) /\
  (forall v, sets c "enumerated_value_value" (VNumber v) (set_enumerated_value_value v c)) /\
  (forall v, sets c "dim_dim" (VNumber v) (set_dim_dim v c)) /\
  (forall v, sets c "dim_increment" (VNumber v) (set_dim_increment v c)).
Proof.
  assert (G : forall c name v c', (exists k g, In (name, k, g) options /\ v = g c') ->
    Forall (fun o => fst (fst o) <> name -> snd o c' = snd o c) options -> sets c name v c').
  { intros c name v c' E F. split; [exact E|]. rewrite Forall_forall in F. intros o w N.
    split; intros (k & g & I & ->); exists k, g; (split; [exact I|]); [|symmetry]; exact (F (o, k, g) I N). }
  intros c. repeat apply conj; intros v; (apply G; [eexists _, _; split; [cbn [options In]; repeat first [left; reflexivity|right]|reflexivity]|]).
  all: repeat constructor; cbn [fst snd]; intros N; first [reflexivity|now destruct N].
Qed.
Print Assumptions C49_setters.

Example C49_example :
  option_kind "register_cluster_sorting" KRcOrder /\
  denotes "Name,RegistersFirst,DerivedLast" KRcOrder (VRcOrder (RegistersFirst (DeriveLast (Some ByName)))) /\
  exists c', update config_default "register_cluster_sorting" "Name,RegistersFirst,DerivedLast" = Ok c' /\
    option_of c' "register_cluster_sorting" (VRcOrder (RegistersFirst (DeriveLast (Some ByName)))).
Proof.
  split; [|split].
  - eexists. cbn [options In]. tauto.
  - apply value_parse_spec. reflexivity.
  - eexists. split; [reflexivity|]. eexists _, _. split; [cbn [options In]; tauto|]. reflexivity.
Qed.
Example C49_bad_example :
  update config_default "register_size" "hex" = Panic Unwrap /\ (forall k, ~ option_kind "colour" k) /\
  update config_default "colour" "red" = Ok config_default.
Proof.
  split; [reflexivity|]. split; [|reflexivity].
  intros k [g G]. cbn [options In] in G.
  repeat (destruct G as [G|G]; [discriminate|]); contradiction.
Qed.
