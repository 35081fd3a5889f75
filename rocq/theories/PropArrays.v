(** C06-C10, C12, C13: index texts, array instances and bit masks. *)
From Verif Require Import BaseFacts Types Arrays SpecNum SpecArray ArrayProofs IndexProofs InstanceProofs MaskProofs.

(** C06: DimElement::parse_indexes accepts exactly the dimIndex grammar and returns
    the list the text denotes. *)
Theorem C06_index_grammar : forall text l, parse_indexes text = Some l <-> index_list text l.
Proof. exact parse_indexes_spec. Qed.
Print Assumptions C06_index_grammar.
Example C06_cases : parse_indexes "3-5" = Some ["3"; "4"; "5"]%string /\ parse_indexes "B-D" = Some ["B"; "C"; "D"]%string /\
  parse_indexes "A,7,x" = Some ["A"; "7"; "x"]%string /\ parse_indexes "5-3" = None /\ parse_indexes "a-B" = None.
Proof. repeat split. Qed.

(** C07: both texts the encoder can write for an index list read back as that list; the
    encoder's choice between them is in PropRound. *)
Theorem C07_list_text : forall l, l <> [] -> Forall (free_of ",") l -> Forall (free_of "-") l ->
  parse_indexes (join "," l) = Some l.
Proof. exact join_parse. Qed.
Print Assumptions C07_list_text.
Theorem C07_range_text : forall m d l a b, de_dim d < pow32 -> de_index d = Some l -> len_N l = de_dim d ->
  indexes_as_range m d = Ok (Some (a, b)) ->
  parse_indexes (to_string a ++ "-" ++ to_string b)%string = Some l.
Proof. exact range_parse. Qed.
Print Assumptions C07_range_text.

(** C08: a range is reported exactly for consecutive canonical numerals, and the only
    panic (given enough indexes) is the span 0..=u32::MAX in checked arithmetic. *)
Theorem C08_range_exact : forall m d a b, de_dim d < pow32 ->
  indexes_as_range m d = Ok (Some (a, b)) <->
  1 <= de_dim d /\ a <= b /\ b < pow32 /\ de_dim d = b - a + 1 /\
  forall i, i < de_dim d -> exists s, index_text d i s /\ numeral (a + i) s.
Proof. exact indexes_as_range_spec. Qed.
Print Assumptions C08_range_exact.
Theorem C08_only_panic : forall m d p, de_dim d < pow32 ->
  (forall i, i < de_dim d -> exists s, index_text d i s) ->
  indexes_as_range m d = Panic p <->
  m = Debug /\ p = Overflow /\
  (forall i, i < de_dim d -> exists s v, index_text d i s /\ numeral v s /\ v < pow32) /\
  (exists i, i < de_dim d /\ index_text d i (to_string 0)) /\
  (exists i, i < de_dim d /\ index_text d i (to_string u32_max)).
Proof. exact indexes_as_range_panic. Qed.
Print Assumptions C08_only_panic.
Definition dim_with (n incr : N) (idx : option (list string)) : dim_element :=
  {| de_dim := n; de_increment := incr; de_index := idx; de_name := None; de_array_index := None |}.
Example C08_cases :
  indexes_as_range Debug (dim_with 3 4 (Some ["5"; "6"; "7"]%string)) = Ok (Some (5, 7)) /\
  indexes_as_range Debug (dim_with 3 4 (Some ["05"; "6"; "7"]%string)) = Ok None /\
  indexes_as_range Debug (dim_with 2 4 (Some ["0"; "4294967295"]%string)) = Panic Overflow /\
  indexes_as_range Release (dim_with 2 4 (Some ["0"; "4294967295"]%string)) = Ok None.
Proof. repeat split. Qed.

(** C09: dim names, the i-th obtained from the template and the i-th index. *)
Theorem C09_names : forall d template l, names d template = Ok l ->
  len_N l = de_dim d /\
  forall i, i < de_dim d -> exists idx name,
    index_text d i idx /\ nth_N l i = Some name /\ name_of_instance d template idx name.
Proof.
  intros d t l H. apply names_spec in H as [HL H]. split; [exact HL|].
  intros i Hi. destruct (H i Hi) as (idx & Ht & Hn). exists idx, (instance_name d t idx).
  exact (conj Ht (conj Hn (instance_name_spec d t idx))).
Qed.
Print Assumptions C09_names.
Theorem C09_descriptions : forall d template l, descriptions d template = Ok l ->
  len_N l = de_dim d /\
  forall i, i < de_dim d -> exists idx descr,
    index_text d i idx /\ nth_N l i = Some descr /\ description_of_instance d template idx descr.
Proof.
  intros d t l H. apply descriptions_spec in H as [HL H]. split; [exact HL|].
  intros i Hi. destruct (H i Hi) as (idx & Ht & Hn). exists idx, (instance_description d t idx).
  exact (conj Ht (conj Hn (instance_description_spec d t idx))).
Qed.
Print Assumptions C09_descriptions.
(** Filling in a template is a function, so the above determines the names. *)
Theorem C09_substitution_unique : forall idx s r r', filled idx s r -> filled idx s r' -> r = r'.
Proof. exact filled_unique. Qed.
Print Assumptions C09_substitution_unique.
(** The two passes amount to replacing every placeholder once, unless they can interact. *)
Theorem C09_one_pass : forall idx s r, plain_template idx s -> (filled idx s r <-> substituted idx s r).
Proof. exact filled_plain. Qed.
Print Assumptions C09_one_pass.
(** They can: a percent sign before a placeholder in brackets. *)
Theorem C09_two_passes_refuted : exists idx s r r', filled idx s r /\ substituted idx s r' /\ r <> r'.
Proof.
  exists "s1"%string, "%[%s]"%string, "s11"%string, "%s1"%string. split; [|split; [|discriminate]].
  - exact (subst_filled "s1" "%[%s]").
  - constructor; [discriminate|intros t E; discriminate E|]. change "[%s]"%string with ("[%s]" ++ "")%string.
    change "s1"%string with ("s1" ++ "")%string. constructor. constructor.
Qed.
Print Assumptions C09_two_passes_refuted.
(** Names exist exactly when every position has an index. *)
Theorem C09_names_total : forall d template,
  (exists l, names d template = Ok l) <-> (forall i, i < de_dim d -> exists idx, index_text d i idx).
Proof. exact names_total. Qed.
Print Assumptions C09_names_total.
Example C09_cases :
  names (dim_with 2 4 (Some ["A"; "B"]%string)) "GPIO%s_[%s]" = Ok ["GPIOA_A"; "GPIOB_B"]%string /\
  names (dim_with 2 4 None) "R[%s]" = Ok ["R0"; "R1"]%string.
Proof. repeat split. Qed.

(** C10: fields. *)
Theorem C10_field_expand : forall m f d l, field_expand m f d = Ok l ->
  len_N l = de_dim d /\ forall i, i < de_dim d -> exists idx x,
    index_text d i idx /\ nth_N l i = Some x /\
    name_of_instance d (f_name f) idx (f_name x) /\
    description_of_instance d (f_description f) idx (f_description x) /\
    progression (2 ^ 32) (br_offset (f_bit_range f)) (de_increment d) i (br_offset (f_bit_range x)) /\
    (m = Debug -> br_offset (f_bit_range x) = br_offset (f_bit_range f) + i * de_increment d) /\
    br_width (f_bit_range x) = br_width (f_bit_range f) /\ br_type (f_bit_range x) = BRT_OffsetWidth /\
    f_access x = f_access f /\ f_mwv x = f_mwv f /\ f_write_constraint x = f_write_constraint f /\
    f_read_action x = f_read_action f /\ f_enumerated_values x = f_enumerated_values f /\
    f_derived_from x = f_derived_from f.
Proof.
  intros m f d l H. rewrite field_expand_instances in H. apply instances_spec in H as [HL H]; [|discriminate].
  split; [exact HL|]. intros i Hi. destruct (H i Hi) as (idx & off & H1 & H2 & H3 & H4).
  exists idx, (field_mk f d idx off). cbn.
  repeat split; auto using instance_name_spec, instance_description_spec.
Qed.
Print Assumptions C10_field_expand.
Theorem C10_register_expand : forall m r d l, register_expand m r d = Ok l ->
  len_N l = de_dim d /\ forall i, i < de_dim d -> exists idx x,
    index_text d i idx /\ nth_N l i = Some x /\
    name_of_instance d (r_name r) idx (r_name x) /\
    description_of_instance d (r_description r) idx (r_description x) /\
    (match r_display_name r with
     | None => r_display_name x = None
     | Some t => exists u, r_display_name x = Some u /\ filled idx t u
     end) /\
    progression (2 ^ 32) (r_address_offset r) (de_increment d) i (r_address_offset x) /\
    (m = Debug -> r_address_offset x = r_address_offset r + i * de_increment d) /\
    r_alternate_group x = r_alternate_group r /\ r_alternate_register x = r_alternate_register r /\
    r_properties x = r_properties r /\ r_datatype x = r_datatype r /\ r_mwv x = r_mwv r /\
    r_write_constraint x = r_write_constraint r /\ r_read_action x = r_read_action r /\
    r_fields x = r_fields r /\ r_derived_from x = r_derived_from r.
Proof.
  intros m r d l H. rewrite register_expand_instances in H. apply instances_spec in H as [HL H]; [|discriminate].
  split; [exact HL|]. intros i Hi. destruct (H i Hi) as (idx & off & H1 & H2 & H3 & H4).
  exists idx, (register_mk r d idx off). cbn.
  repeat split; auto using instance_name_spec, instance_description_spec.
  destruct (r_display_name r); cbn; eauto using subst_filled.
Qed.
Print Assumptions C10_register_expand.
Theorem C10_cluster_expand : forall m c d l, cluster_expand m c d = Ok l ->
  len_N l = de_dim d /\ forall i, i < de_dim d -> exists idx x,
    index_text d i idx /\ nth_N l i = Some x /\
    name_of_instance d (c_name c) idx (c_name x) /\
    description_of_instance d (c_description c) idx (c_description x) /\
    progression (2 ^ 32) (c_address_offset c) (de_increment d) i (c_address_offset x) /\
    (m = Debug -> c_address_offset x = c_address_offset c + i * de_increment d) /\
    c_alternate_cluster x = c_alternate_cluster c /\ c_header_struct_name x = c_header_struct_name c /\
    c_default_properties x = c_default_properties c /\ c_children x = c_children c /\
    c_derived_from x = c_derived_from c.
Proof.
  intros m c d l H. rewrite cluster_expand_instances in H. apply instances_spec in H as [HL H]; [|discriminate].
  split; [exact HL|]. intros i Hi. destruct (H i Hi) as (idx & off & H1 & H2 & H3 & H4).
  exists idx, (cluster_mk c d idx off). cbn.
  repeat split; auto using instance_name_spec, instance_description_spec.
Qed.
Print Assumptions C10_cluster_expand.
Theorem C10_peripheral_expand : forall m p d l, peripheral_expand m p d = Ok l ->
  len_N l = de_dim d /\ forall i, i < de_dim d -> exists idx x,
    index_text d i idx /\ nth_N l i = Some x /\
    name_of_instance d (p_name p) idx (p_name x) /\
    description_of_instance d (p_description p) idx (p_description x) /\
    (match p_display_name p with
     | None => p_display_name x = None
     | Some t => exists u, p_display_name x = Some u /\ filled idx t u
     end) /\
    progression (2 ^ 64) (p_base_address p) (de_increment d) i (p_base_address x) /\
    (m = Debug -> p_base_address x = p_base_address p + i * de_increment d) /\
    p_version x = p_version p /\ p_alternate_peripheral x = p_alternate_peripheral p /\
    p_group_name x = p_group_name p /\ p_prepend_to_name x = p_prepend_to_name p /\
    p_append_to_name x = p_append_to_name p /\ p_header_struct_name x = p_header_struct_name p /\
    p_default_properties x = p_default_properties p /\ p_address_block x = p_address_block p /\
    p_interrupt x = p_interrupt p /\ p_registers x = p_registers p /\ p_derived_from x = p_derived_from p.
Proof.
  intros m p d l H. rewrite peripheral_expand_instances in H. apply instances_spec in H as [HL H]; [|discriminate].
  split; [exact HL|]. intros i Hi. destruct (H i Hi) as (idx & off & H1 & H2 & H3 & H4).
  exists idx, (peripheral_mk p d idx off). cbn.
  repeat split; auto using instance_name_spec, instance_description_spec.
  destruct (p_display_name p); cbn; eauto using subst_filled.
Qed.
Print Assumptions C10_peripheral_expand.

(** When expansion succeeds: there are enough indexes and, in checked arithmetic, no
    address overflows; otherwise it panics (never an error). *)
Definition expansion_fits (bound base : N) (m : mode) (d : dim_element) : Prop :=
  (forall i, i < de_dim d -> exists idx, index_text d i idx) /\
  (m = Debug -> forall i, i < de_dim d -> base + i * de_increment d < bound).
Theorem C10_succeeds_or_panics : forall m f r c p d,
  ((exists l, field_expand m f d = Ok l) <-> expansion_fits (2 ^ 32) (br_offset (f_bit_range f)) m d) /\
  ((exists l, register_expand m r d = Ok l) <-> expansion_fits (2 ^ 32) (r_address_offset r) m d) /\
  ((exists l, cluster_expand m c d = Ok l) <-> expansion_fits (2 ^ 32) (c_address_offset c) m d) /\
  ((exists l, peripheral_expand m p d = Ok l) <-> expansion_fits (2 ^ 64) (p_base_address p) m d) /\
  ((exists q, field_expand m f d = Panic q) <-> ~ exists l, field_expand m f d = Ok l) /\
  ((exists q, register_expand m r d = Panic q) <-> ~ exists l, register_expand m r d = Ok l) /\
  ((exists q, cluster_expand m c d = Panic q) <-> ~ exists l, cluster_expand m c d = Ok l) /\
  ((exists q, peripheral_expand m p d = Panic q) <-> ~ exists l, peripheral_expand m p d = Ok l).
Proof.
  intros. rewrite field_expand_instances, register_expand_instances, cluster_expand_instances, peripheral_expand_instances.
  repeat (apply conj; [apply instances_ok || apply instances_panic|]). apply instances_panic.
Qed.
Print Assumptions C10_succeeds_or_panics.
Definition sample_field (name : string) (o w : N) : field_info :=
  {| f_name := name; f_description := None; f_bit_range := br_from_offset_width o w; f_access := Some ReadOnly;
     f_mwv := None; f_write_constraint := None; f_read_action := None; f_enumerated_values := []; f_derived_from := None |}.
Example C10_case : exists l, field_expand Debug (sample_field "F%s" 2 3) (dim_with 3 4 None) = Ok l /\
  map f_name l = ["F0"; "F1"; "F2"]%string /\ map (fun f => br_offset (f_bit_range f)) l = [2; 6; 10].
Proof. eexists. repeat split. Qed.
Example C10_overflow : field_expand Debug (sample_field "F%s" 4294967290 3) (dim_with 3 4 None) = Panic Overflow.
Proof. reflexivity. Qed.

(** C12: the mask has exactly the bits the field covers. *)
Theorem C12_field_bitmask : forall m f, maskable f ->
  exists v, field_bitmask m f = Ok v /\ forall k, N.testbit v k = true <-> field_covers f k /\ k < 64.
Proof. exact field_bitmask_ok. Qed.
Print Assumptions C12_field_bitmask.
Theorem C12_panics_outside : forall f, (exists p, field_bitmask Debug f = Panic p) <-> ~ maskable f.
Proof. exact field_bitmask_panic. Qed.
Print Assumptions C12_panics_outside.
Example C12_case : maskable (Array (sample_field "F%s" 2 3) (dim_with 3 8 None)) /\
  field_bitmask Debug (Array (sample_field "F%s" 2 3) (dim_with 3 8 None)) = Ok 0x1C1C1C.
Proof.
  split; [|reflexivity]. cbn [maskable]. unfold maskable_info. cbn.
  repeat split; try discriminate. intros i Hi. cbn in *. lia.
Qed.
(** In wrapping arithmetic a zero width field, which validation level Disabled lets
    through, gets the mask of a 64 bit field. *)
Theorem C12_release_zero_width : exists f, br_width (f_bit_range f) = 0 /\
  field_info_bitmask Release f = Ok (2 ^ 64 - 1) /\ forall k, ~ field_covers (Single f) k.
Proof. exact bitmask_zero_width. Qed.
Print Assumptions C12_release_zero_width.

(** C13: the register mask is the union. *)
Theorem C13_register_bitmask : forall m r, Forall maskable (r_fields_iter r) ->
  exists v, register_bitmask m r = Ok v /\
  forall k, N.testbit v k = true <-> k < 64 /\ exists f, In f (r_fields_iter r) /\ field_covers f k.
Proof. exact register_bitmask_ok. Qed.
Print Assumptions C13_register_bitmask.
Theorem C13_panics_outside : forall r,
  (exists p, register_bitmask Debug r = Panic p) <-> ~ Forall maskable (r_fields_iter r).
Proof. exact register_bitmask_panic. Qed.
Print Assumptions C13_panics_outside.
Theorem C13_no_fields : forall m r, r_fields_iter r = [] -> register_bitmask m r = Ok 0.
Proof. exact register_bitmask_empty. Qed.
Print Assumptions C13_no_fields.
