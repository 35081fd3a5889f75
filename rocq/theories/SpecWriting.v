(** What writing a device cannot handle, for C82. *)
From Verif Require Import Base Types Config SpecNum SpecArray SpecParse SpecSort.

(** ** The registers of a device, with their fields *)
Inductive register_under : register_cluster -> register -> Prop :=
  | ru_here r : register_under (RCRegister r) r
  | ru_child c rc r : In rc (c_children (info c)) -> register_under rc r -> register_under (RCCluster c) r.
Inductive register_of (d : device) (r : register) : Prop :=
  | ro_in p rcs rc : In p (d_peripherals d) -> p_registers (info p) = Some rcs -> In rc rcs -> register_under rc r -> register_of d r.

(** ** Sorting by descending address: two or more elements that are sorted together, one with
    an address that has no negative counterpart *)
Definition sorted_together {A} (derived : A -> Prop) (s : derivable_sorting) (l g : list A) : Prop :=
  s = Unchanged (Some ByOffsetReversed) /\ g = l \/
  s = DeriveLast (Some ByOffsetReversed) /\ exists a b, split_by derived l a b /\ (g = a \/ g = b).
Definition entries_together (s : rc_sorting) (l g : list register_cluster) : Prop :=
  match s with
  | RcUnchanged s => sorted_together entry_derived s l g
  | RegistersFirst s | ClustersFirst s =>
      exists r c, split_by (fun x => exists y, x = RCRegister y) l r c /\ (sorted_together entry_derived s r g \/ sorted_together entry_derived s c g)
  end.
Definition unsortable {A} (offset : A -> N) (g : list A) : Prop :=
  (2 <= List.length g)%nat /\ exists x, In x g /\ offset x mod 2 ^ 32 = 2 ^ 31.

(** ** A field whose last bit is written but cannot be computed *)
Definition last_bit_written (cfg : config) (b : bit_range) : Prop :=
  cfg_field_bit_range cfg = None /\ br_type b <> BRT_OffsetWidth \/
  exists t, cfg_field_bit_range cfg = Some t /\ t <> BRT_OffsetWidth.
Definition no_last_bit (b : bit_range) : Prop := br_offset b + br_width b = 0 \/ 2 ^ 32 <= br_offset b + br_width b.

(** ** Index lists *)
Definition index_number (s : string) : Prop := exists v, numeral v s /\ v < 2 ^ 32.
(** Numbers only, but not enough of them *)
Definition too_few (d : dim_element) (is : list string) : Prop :=
  N.of_nat (List.length is) < de_dim d /\ Forall index_number is.
(** Numbers only, among them the least and the greatest *)
Definition both_ends (d : dim_element) (is : list string) : Prop :=
  let used := firstn (N.to_nat (de_dim d)) is in
  de_dim d <= N.of_nat (List.length is) /\ Forall index_number used /\ In "0"%string used /\ In "4294967295"%string used.

(** ** All of them, with the panic each causes *)
Inductive unwritable (m : mode) (cfg : config) (d : device) : panic -> Prop :=
  | uw_peripherals g : m = Debug -> sorted_together (fun p => p_derived_from (info p) <> None) (cfg_peripheral_sorting cfg) (d_peripherals d) g ->
      unsortable (fun p => p_base_address (info p)) g -> unwritable m cfg d Overflow
  | uw_registers p rcs g : m = Debug -> In p (d_peripherals d) -> p_registers (info p) = Some rcs ->
      entries_together (cfg_register_cluster_sorting cfg) rcs g -> unsortable entry_offset g -> unwritable m cfg d Overflow
  | uw_fields r fs g : m = Debug -> register_of d r -> r_fields (info r) = Some fs ->
      sorted_together (fun f => f_derived_from (info f) <> None \/ exists e, In e (f_enumerated_values (info f)) /\ evs_derived_from e <> None)
        (cfg_field_sorting cfg) fs g ->
      unsortable (fun f => br_offset (f_bit_range (info f))) g -> unwritable m cfg d Overflow
  | uw_bits r fs f : m = Debug -> register_of d r -> r_fields (info r) = Some fs -> In f fs ->
      last_bit_written cfg (f_bit_range (info f)) -> no_last_bit (f_bit_range (info f)) -> unwritable m cfg d Overflow
  | uw_few s a is : array_in_device d s a -> de_index a = Some is -> too_few a is -> unwritable m cfg d OutOfBounds
  | uw_ends s a is : m = Debug -> array_in_device d s a -> de_index a = Some is -> both_ends a is -> unwritable m cfg d Overflow.
