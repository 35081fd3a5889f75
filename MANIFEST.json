{
 "claims": [
  {
   "property": "C01",
   "status": "proved",
   "theorems": [
    "C01_number_round_trip",
    "C01_text"
   ],
   "note": "C01_text also pins the exact text: prefix, letter case, padding, no superfluous zeros."
  },
  {
   "property": "C02",
   "status": "proved",
   "theorems": [
    "C02_number_grammar",
    "C02_number_error"
   ],
   "note": ""
  },
  {
   "property": "C03",
   "status": "proved",
   "theorems": [
    "C03_enum_texts"
   ],
   "note": ""
  },
  {
   "property": "C04",
   "status": "proved",
   "theorems": [
    "C04_round_trip",
    "C04_offset_width",
    "C04_release_edge",
    "C04_debug_edge_refuted"
   ],
   "note": "The edge offset+width = 2^32 panics in Debug: proved as a finding."
  },
  {
   "property": "C05",
   "status": "proved",
   "theorems": [
    "C05_ends",
    "C05_reversed",
    "C05_size",
    "C05_only",
    "C05_full_range",
    "C05_no_other_panic"
   ],
   "note": "The range 0..4294967295 overflows: Debug panics, Release yields width 0."
  },
  {
   "property": "C06",
   "status": "proved",
   "theorems": [
    "C06_index_grammar"
   ],
   "note": ""
  },
  {
   "property": "C07",
   "status": "proved",
   "theorems": [
    "C07_list_text",
    "C07_range_text",
    "C07_round_trip",
    "C07_written",
    "C07_odd_indexes_refuted"
   ],
   "note": "The written dimIndex reads back as the same list for index texts without comma and dash whose joined text has no outer white space; a dash inside an index is a counterexample."
  },
  {
   "property": "C08",
   "status": "proved",
   "theorems": [
    "C08_range_exact",
    "C08_only_panic",
    "C08_indexes",
    "C08_listed"
   ],
   "note": "Finding: indexes containing both 0 and 4294967295 make indexes_as_range panic in checked arithmetic."
  },
  {
   "property": "C09",
   "status": "proved",
   "theorems": [
    "C09_names",
    "C09_descriptions",
    "C09_substitution_unique",
    "C09_names_total",
    "C09_one_pass",
    "C09_two_passes_refuted"
   ],
   "note": "The texts are pinned exactly as two left-to-right passes ([%s] first, then %s). C09_one_pass: this is replacing every placeholder once whenever the index has no percent sign and the template no %[%s]; C09_two_passes_refuted: otherwise the passes can interact."
  },
  {
   "property": "C10",
   "status": "proved",
   "theorems": [
    "C10_field_expand",
    "C10_register_expand",
    "C10_cluster_expand",
    "C10_peripheral_expand",
    "C10_succeeds_or_panics"
   ],
   "note": ""
  },
  {
   "property": "C11",
   "status": "proved",
   "theorems": [
    "C11_arrays",
    "C11_names",
    "C11_parts"
   ],
   "note": ""
  },
  {
   "property": "C12",
   "status": "proved",
   "theorems": [
    "C12_field_bitmask",
    "C12_panics_outside",
    "C12_release_zero_width"
   ],
   "note": "Finding: with wrapping arithmetic a zero-width field has the all-ones mask."
  },
  {
   "property": "C13",
   "status": "proved",
   "theorems": [
    "C13_register_bitmask",
    "C13_panics_outside",
    "C13_no_fields"
   ],
   "note": ""
  },
  {
   "property": "C14",
   "status": "proved",
   "theorems": [
    "C14_reset_value"
   ],
   "note": ""
  },
  {
   "property": "C15",
   "status": "proved",
   "theorems": [
    "C15_value",
    "C15_values"
   ],
   "note": ""
  },
  {
   "property": "C16",
   "status": "proved",
   "theorems": [
    "C16_field"
   ],
   "note": ""
  },
  {
   "property": "C17",
   "status": "proved",
   "theorems": [
    "C17_element",
    "C17_device",
    "C17_peripheral",
    "C17_register_cluster",
    "C17_field"
   ],
   "note": ""
  },
  {
   "property": "C18",
   "status": "proved",
   "theorems": [
    "C18_name",
    "C18_arrayable",
    "C18_derived"
   ],
   "note": ""
  },
  {
   "property": "C19",
   "status": "proved",
   "theorems": [
    "C19_properties",
    "C19_values",
    "C19_field",
    "C19_register",
    "C19_cluster",
    "C19_peripheral"
   ],
   "note": "The result is characterised exactly (iff) by an independent inheritance relation."
  },
  {
   "property": "C20",
   "status": "proved",
   "theorems": [
    "C20_infos",
    "C20_elements",
    "C20_chain",
    "C20_chain_refuted"
   ],
   "note": "Associativity characterised exactly; the unconditional claim is refuted with a witness."
  },
  {
   "property": "C21",
   "status": "proved",
   "theorems": [
    "C21_single_from_array",
    "C21_info"
   ],
   "note": ""
  },
  {
   "property": "C22",
   "status": "proved",
   "theorems": [
    "C22_value",
    "C22_values",
    "C22_dim",
    "C22_field",
    "C22_register",
    "C22_cluster",
    "C22_peripheral",
    "C22_simple",
    "C22_device",
    "C22_tidy_valid",
    "C22_missing",
    "C22_missing_device",
    "C22_missing_rest"
   ],
   "note": ""
  },
  {
   "property": "C23",
   "status": "proved",
   "theorems": [
    "C23_simple",
    "C23_register",
    "C23_cluster",
    "C23_peripheral",
    "C23_device",
    "C23_frame",
    "C23_identity",
    "C23_twice",
    "C23_self",
    "C23_self_refuted"
   ],
   "note": "C23_twice: modifying again with the same builder changes nothing. C23_self: an element's own builder leaves it as it is, unless it is derived (C23_self_refuted)."
  },
  {
   "property": "C24",
   "status": "proved",
   "theorems": [
    "C24_offset_then_width",
    "C24_after_range",
    "C24_width_then_offset_fails",
    "C24_offset_twice",
    "C24_commute_refuted",
    "C24_modify",
    "C24_last_wins_refuted"
   ],
   "note": "Finding: bit_offset tests the wrong member. C24_modify: what modify_from makes of the bits, for every chain of calls; that the last value wins there is refuted."
  },
  {
   "property": "C25",
   "status": "proved",
   "theorems": [
    "C25_never",
    "C25_emptied",
    "C25_derived_refuted"
   ],
   "note": "Finding: derivedFrom is never assigned."
  },
  {
   "property": "C26",
   "status": "proved",
   "theorems": [
    "C26_all_registers",
    "C26_only_that",
    "C26_one_order",
    "C26_complete",
    "C26_direct"
   ],
   "note": "The Vec-based iterator is modelled step by step with fuel."
  },
  {
   "property": "C27",
   "status": "proved",
   "theorems": [
    "C27_register",
    "C27_cluster",
    "C27_absent",
    "C27_others"
   ],
   "note": ""
  },
  {
   "property": "C28",
   "status": "proved",
   "theorems": [
    "C28_same_elements",
    "C28_peripherals",
    "C28_fields",
    "C28_registers",
    "C28_unique",
    "C28_idempotent",
    "C28_total"
   ],
   "note": "Peripherals, fields, registers and clusters; every sorting option; both build modes. Sorting succeeds with out iff out is the unique stable reordering of the specification (for OffsetReversed: addresses below 2^31, see C29)."
  },
  {
   "property": "C29",
   "status": "proved",
   "theorems": [
    "C29_below_2_31",
    "C29_descending_refuted",
    "C29_panic_refuted",
    "C29_panic_exact",
    "C28_fields",
    "C28_registers"
   ],
   "note": "The unrestricted claim is refuted (finding): wrong order in release, panic in debug."
  },
  {
   "property": "C30",
   "status": "proved",
   "theorems": [
    "C30_print",
    "C30_compare",
    "C30_parse",
    "C30_round_trip",
    "C30_two_parts_refuted",
    "C30_parent",
    "C30_peripheral_refuted"
   ],
   "note": "C30_two_parts_refuted: a REG.FIELD reference panics"
  },
  {
   "property": "C31",
   "status": "proved",
   "theorems": [
    "C31_sound",
    "C31_complete",
    "C31_unique",
    "C31_last"
   ],
   "note": ""
  },
  {
   "property": "C32",
   "status": "proved",
   "theorems": [
    "C32_flat"
   ],
   "note": ""
  },
  {
   "property": "C33",
   "status": "proved",
   "theorems": [
    "C33_reachable",
    "C33_panics"
   ],
   "note": ""
  },
  {
   "property": "C34",
   "status": "proved",
   "theorems": [
    "C34_layout"
   ],
   "note": ""
  },
  {
   "property": "C35",
   "status": "proved",
   "theorems": [
    "C35_idempotent",
    "C35_identity",
    "C35_fixed",
    "C35_image"
   ],
   "note": ""
  },
  {
   "property": "C36",
   "status": "proved",
   "theorems": [
    "C36_frame"
   ],
   "note": ""
  },
  {
   "property": "C37",
   "status": "proved",
   "theorems": [
    "C37_meaning",
    "C37_peripheral",
    "C37_cluster",
    "C37_register",
    "C37_field",
    "C37_values",
    "C37_missing",
    "C37_origin_refuted"
   ],
   "note": "C37_origin_refuted: relative references of inherited content can be looked up in the wrong element"
  },
  {
   "property": "C38",
   "status": "proved",
   "theorems": [
    "C38_fuel",
    "C38_terminates",
    "C38_acyclic",
    "C38_cycle_refuted",
    "C38_nested_refuted",
    "C38_bound",
    "C38_bounded"
   ],
   "note": "The unconditional statement is false (two witnesses). Proved: the fuel only cuts off, and expansion has a definite result whenever following references ends, in particular when the references of each kind can be numbered downwards. C38_bound: a depth that is enough, given how far references go; C38_bounded: such bounds exist exactly where references go down."
  },
  {
   "property": "C39",
   "status": "proved",
   "theorems": [
    "C39_filled"
   ],
   "note": ""
  },
  {
   "property": "C40",
   "status": "proved",
   "theorems": [
    "C39_filled",
    "C40_twice"
   ],
   "note": ""
  },
  {
   "property": "C41",
   "status": "proved",
   "theorems": [
    "C41_round_trip",
    "C41_default",
    "C41_exact",
    "C41_distinct"
   ],
   "note": "device_fits describes the devices an SVD file can express (texts non-empty and without outer white space, numbers in range, valid at the level). C41_exact shows that in a checked build no other device comes back unchanged, so nothing in device_fits is superfluous. The XML text layer is outside the model: the tree written is the tree read. Debug builds panic on index lists of numbers with both 0 and 4294967295."
  },
  {
   "property": "C42",
   "status": "proved",
   "theorems": [
    "C42_parts",
    "C42_field",
    "C42_register_cluster",
    "C42_peripheral"
   ],
   "note": "Every component read back unchanged."
  },
  {
   "property": "C43",
   "status": "proved",
   "theorems": [
    "C43_meaning",
    "C43_written",
    "C43_numbers"
   ],
   "note": "Without name conversions the result is the same description up to order and bit range notation (device_like)."
  },
  {
   "property": "C44",
   "status": "proved",
   "theorems": [
    "C44_valid",
    "C44_validate_all"
   ],
   "note": ""
  },
  {
   "property": "C45",
   "status": "proved",
   "theorems": [
    "C45_layout",
    "C45_parts",
    "C45_comment_before_text_refuted"
   ],
   "note": ""
  },
  {
   "property": "C46",
   "status": "proved",
   "theorems": [
    "C46_ignore_enums"
   ],
   "note": ""
  },
  {
   "property": "C47",
   "status": "proved",
   "theorems": [
    "C47_mark",
    "C47_trim",
    "C47_twice_refuted"
   ],
   "note": "For a text that does not itself start with a mark; a second mark is not taken away (witness)."
  },
  {
   "property": "C48",
   "status": "proved",
   "theorems": [
    "C48_panics",
    "C48_no_panic",
    "C48_write_constraint_refuted",
    "C48_wide_field_refuted"
   ],
   "note": "Panic freedom fails in two ways, proved as findings; everything else is panic free."
  },
  {
   "property": "C49",
   "status": "proved",
   "theorems": [
    "C49_known",
    "C49_panic",
    "C49_unknown",
    "C49_options",
    "C49_order_total",
    "C49_default",
    "C49_setters"
   ],
   "note": "The specification is a table of all 23 options; a known option is set exactly when the text denotes a value and every other option is untouched; a text that denotes none panics; unknown names are ignored."
  },
  {
   "property": "C50",
   "status": "proved",
   "theorems": [
    "C50_round_trip",
    "C50_identity",
    "C50_exact",
    "C50_distinct",
    "C50_indexes",
    "C50_unindexed_refuted",
    "C50_header_refuted",
    "C50_dash_refuted"
   ],
   "note": "Whole devices. C50_exact: in a checked build the devices of C50_identity are the only ones that come back unchanged. Arrays without index list and root attributes are lost, proved by witnesses. The serde macros are modelled by combinators (DESIGN.md)."
  },
  {
   "property": "C51",
   "status": "proved",
   "theorems": [
    "C51_atomic_refuted",
    "C51_success_valid",
    "C23_frame"
   ],
   "note": "Atomicity is refuted; what holds is proved."
  },
  {
   "property": "C52",
   "status": "proved",
   "theorems": [
    "C52_structural"
   ],
   "note": ""
  },
  {
   "property": "C53",
   "status": "proved",
   "theorems": [
    "C53_device_tree",
    "C53_register_cluster_tree"
   ],
   "note": ""
  },
  {
   "property": "C54",
   "status": "proved",
   "theorems": [
    "C54_no_panic"
   ],
   "note": ""
  },
  {
   "property": "C55",
   "status": "proved",
   "theorems": [
    "C55_trim",
    "C55_unique"
   ],
   "note": ""
  },
  {
   "property": "C56",
   "status": "proved",
   "theorems": [
    "C56_reread"
   ],
   "note": "Documents without blank texts and empty fields lists."
  },
  {
   "property": "C57",
   "status": "proved",
   "theorems": [
    "C57_named",
    "C57_styles",
    "C57_converted",
    "C57_peripheral_references",
    "C57_cluster_references",
    "C57_register_references",
    "C57_field_references",
    "C57_references_refuted"
   ],
   "note": "The case conversion function (crate convert_case) is a parameter. References with a path are converted as a whole with one format, so they can dangle (witness)."
  },
  {
   "property": "C58",
   "status": "proved",
   "theorems": [
    "C58_bounds",
    "C58_parsed",
    "C58_unwrap",
    "C58_errors",
    "C58_total",
    "C58_short_refuted"
   ],
   "note": ""
  },
  {
   "property": "C59",
   "status": "proved",
   "theorems": [
    "C59_boolean",
    "C59_boolean_error"
   ],
   "note": ""
  },
  {
   "property": "C60",
   "status": "proved",
   "theorems": [
    "C60_expanded",
    "C60_valid",
    "C60_filled",
    "C60_missing",
    "C60_panics",
    "C60_round_trip",
    "C60_text",
    "C60_default"
   ],
   "note": "roxmltree and xmltree are parameters; the round trip assumes they agree on the tree written up to layout (the writer indents). C60_text shows the assumption can be met for every device: a concrete indenting writer and reader of text (SpecMarkup.v, not code of the repository) satisfy it on every tree the encoder makes whose characters XML can hold."
  },
  {
   "property": "C61",
   "status": "proved",
   "theorems": [
    "C61_stays_valid",
    "C61_register_refuted",
    "C61_field_refuted",
    "C61_filled_refuted",
    "C61_emptied_refuted",
    "C61_strict_refuted",
    "C61_any"
   ],
   "note": "The unconditional statement is false (five witnesses); it holds at levels Disabled and Weak for devices without references that keep a peripheral. With derivedFrom: the expansion is valid if the description in which all that is inherited is written in place is (C61_any)."
  },
  {
   "property": "C62",
   "status": "proved",
   "theorems": [
    "C62_order"
   ],
   "note": ""
  },
  {
   "property": "C63",
   "status": "proved",
   "theorems": [
    "C63_write",
    "C63_read"
   ],
   "note": "Writing is characterised exactly; for reading the cause is necessary."
  },
  {
   "property": "C64",
   "status": "proved",
   "theorems": [
    "C64_ranges",
    "C64_checked",
    "C64_stable",
    "C64_unvalidated_refuted"
   ],
   "note": ""
  },
  {
   "property": "C65",
   "status": "proved",
   "theorems": [
    "C65_text",
    "C65_refused",
    "C65_panics",
    "C65_ends",
    "C65_round_trip"
   ],
   "note": ""
  },
  {
   "property": "C66",
   "status": "proved",
   "theorems": [
    "C66_foreign_keys"
   ],
   "note": ""
  },
  {
   "property": "C67",
   "status": "proved",
   "theorems": [
    "C67_replaced",
    "C67_none",
    "C67_read_back",
    "C67_each"
   ],
   "note": "References are places; assignment through them. Examples C67_case."
  },
  {
   "property": "C68",
   "status": "proved",
   "theorems": [
    "C68_all_replaced",
    "C68_only_that",
    "C68_same_walk",
    "C68_written"
   ],
   "note": "The iterator's stack of places is run step by step over a tree that changes meanwhile."
  },
  {
   "property": "C69",
   "status": "proved",
   "theorems": [
    "C69_by_usage",
    "C69_assign",
    "C69_one_usage",
    "C69_default"
   ],
   "note": ""
  },
  {
   "property": "C70",
   "status": "proved",
   "theorems": [
    "C70_same_parser"
   ],
   "note": "Located parser and plain parser agree on devices, errors and panics."
  },
  {
   "property": "C71",
   "status": "proved",
   "theorems": [
    "C71_true_where_reported",
    "C71_levels"
   ],
   "note": "Predicate fault of SpecFault.v per error."
  },
  {
   "property": "C72",
   "status": "proved",
   "theorems": [
    "C72_report"
   ],
   "note": "Position texts (row, column) are a parameter."
  },
  {
   "property": "C73",
   "status": "proved",
   "theorems": [
    "C73_device",
    "C73_parts",
    "C73_unique",
    "C73_written"
   ],
   "note": "Numbers, booleans and names are read as in the other specs (SpecText, SpecNum); XML itself is a parameter."
  },
  {
   "property": "C74",
   "status": "proved",
   "theorems": [
    "C74_device",
    "C74_parts"
   ],
   "note": "Content models from the CMSIS-SVD schema, plus displayName of peripherals, which the crate adds."
  },
  {
   "property": "C75",
   "status": "proved",
   "theorems": [
    "C75_device",
    "C75_parts",
    "C75_unique",
    "C75_written"
   ],
   "note": "The serde data format is the tree of Serde.v; structs are read from maps only."
  },
  {
   "property": "C76",
   "status": "proved",
   "theorems": [
    "C76_device",
    "C76_parts"
   ],
   "note": "The order of keys is the order in which the derived serializers emit them."
  },
  {
   "property": "C77",
   "status": "proved",
   "theorems": [
    "C77_unique",
    "C77_complete",
    "C77_exactly",
    "C77_meaningless",
    "C77_ambiguous_refuted"
   ],
   "note": "Converse of C37: under unambiguous (no path shared by two different elements of a kind, values of a register told apart by name) the meaning is single-valued and reached; C77_ambiguous_refuted shows the hypothesis is needed."
  },
  {
   "property": "C78",
   "status": "proved",
   "theorems": [
    "C78_parse_shown",
    "C78_expand_shown",
    "C78_validate_shown",
    "C78_build_shown",
    "C78_modify_shown",
    "C78_only_panic",
    "C78_parse_unambiguous",
    "C78_expand_unambiguous",
    "C78_range_message",
    "C78_expand_words",
    "C78_quotes",
    "C78_quotes_words"
   ],
   "note": "Texts of Show.v; the debug text of a path at the end of one expansion message is left out."
  },
  {
   "property": "C79",
   "status": "proved",
   "theorems": [
    "C79_reread",
    "C79_plain",
    "C79_filled",
    "C79_both",
    "C79_files",
    "C79_invalid_refuted",
    "C79_blank_index_refuted",
    "C79_no_instance_refuted"
   ],
   "note": "Conditions needed as the three refutations show."
  },
  {
   "property": "C80",
   "status": "proved",
   "theorems": [
    "C80_parsed",
    "C80_parsed_checked",
    "C80_expanded",
    "C80_expanded_checked",
    "C80_deserialised"
   ],
   "note": "The header attributes are those of C50_header_refuted."
  },
  {
   "property": "C81",
   "status": "proved",
   "theorems": [
    "C81_true",
    "C81_never",
    "C81_no_peripheral",
    "C81_absent",
    "C81_loop",
    "C81_self_refuted"
   ],
   "note": "The last sentence is the refuted claim: a chain through a namesake is taken for a loop."
  },
  {
   "property": "C82",
   "status": "proved",
   "theorems": [
    "C82_exact",
    "C82_text",
    "C82_parsed",
    "C82_default"
   ],
   "note": "The number of elements of an array is assumed to be a u32, as its type says."
  },
  {
   "property": "C83",
   "status": "proved",
   "theorems": [
    "C83_props",
    "C83_value",
    "C83_values",
    "C83_dim",
    "C83_field",
    "C83_register",
    "C83_cluster",
    "C83_block",
    "C83_interrupt",
    "C83_peripheral",
    "C83_cpu",
    "C83_device",
    "C83_swap",
    "C83_complete",
    "C83_given_value",
    "C83_given_values",
    "C83_given_dim",
    "C83_given_field",
    "C83_given_register",
    "C83_given_cluster",
    "C83_given_block",
    "C83_given_interrupt",
    "C83_given_peripheral",
    "C83_given_cpu",
    "C83_given_device",
    "C83_copy",
    "C83_changed"
   ],
   "note": "chains of builder calls; C83_given_*: what the builder holds, which modify_from uses (C23); C83_changed: chains that start from the builder of an element"
  },
  {
   "property": "C84",
   "status": "proved",
   "theorems": [
    "C84_parse",
    "C84_report",
    "C84_expand",
    "C84_encode",
    "C84_serde",
    "C84_elements",
    "C84_messages",
    "C84_always_refuted"
   ],
   "note": "C84_always_refuted: after an overflow the release build continues with wrapped addresses."
  },
  {
   "property": "C85",
   "status": "proved",
   "theorems": [
    "C85_properties",
    "C85_complete",
    "C85_other_order_refuted",
    "C85_derived_refuted"
   ],
   "note": "Stated for devices in which no peripheral, cluster or register is derived; C85_derived_refuted shows that it fails otherwise."
  },
  {
   "property": "C86",
   "status": "proved",
   "theorems": [
    "C86_expand",
    "C86_symmetric",
    "C86_apart",
    "C86_kept",
    "C86_written",
    "C86_ambiguous_refuted"
   ],
   "note": ""
  },
  {
   "property": "C87",
   "status": "proved",
   "theorems": [
    "C87_properties",
    "C87_value",
    "C87_values",
    "C87_field",
    "C87_register",
    "C87_cluster",
    "C87_peripheral",
    "C87_device",
    "C87_one_verdict",
    "C87_device_all",
    "C87_peripheral_all",
    "C87_child_all",
    "C87_field_all",
    "C87_values_all",
    "C87_walk"
   ],
   "note": ""
  },
  {
   "property": "C88",
   "status": "proved",
   "theorems": [
    "C88_fields",
    "C88_bits",
    "C88_masks",
    "C88_disjoint",
    "C88_high_refuted",
    "C88_derived_refuted",
    "C88_any"
   ],
   "note": " With derivedFrom: the same of the description in which all that is inherited is written in place (C103)."
  },
  {
   "property": "C89",
   "status": "proved",
   "theorems": [
    "C89_access",
    "C89_word",
    "C89_element",
    "C89_serde",
    "C89_some",
    "C89_once",
    "C89_family",
    "C89_maybe",
    "C89_either",
    "C89_options",
    "C89_defaults"
   ],
   "note": ""
  },
  {
   "property": "C90",
   "status": "proved",
   "theorems": [
    "C90_chain",
    "C90_settles",
    "C90_expanded"
   ],
   "note": ""
  },
  {
   "property": "C91",
   "status": "proved",
   "theorems": [
    "C91",
    "C91_derived_refuted",
    "C91_any"
   ],
   "note": " With derivedFrom: the same of the description in which all that is inherited is written in place (C103)."
  },
  {
   "property": "C92",
   "status": "proved",
   "theorems": [
    "C92_union",
    "C92_added",
    "C92_shared_refuted"
   ],
   "note": ""
  },
  {
   "property": "C93",
   "status": "proved",
   "theorems": [
    "C93_find",
    "C93_found",
    "C93_clash_refuted",
    "C93_any"
   ],
   "note": " With derivedFrom: the same of the description in which all that is inherited is written in place (C103)."
  },
  {
   "property": "C94",
   "status": "proved",
   "theorems": [
    "C94_level",
    "C94_weaker",
    "C94_tree_refuted"
   ],
   "note": ""
  },
  {
   "property": "C95",
   "status": "proved",
   "theorems": [
    "C95_expand",
    "C95_options",
    "C95_values_refuted"
   ],
   "note": ""
  },
  {
   "property": "C96",
   "status": "proved",
   "theorems": [
    "C96_blocks",
    "C96_device",
    "C96_crowded",
    "C96_release_refuted",
    "C96_any"
   ],
   "note": "From the layout of C34: the registers below an element stay within its stretch, and steps keep instances apart. With derivedFrom: the same of the description in which all that is inherited is written in place (C103)."
  },
  {
   "property": "C97",
   "status": "proved",
   "theorems": [
    "C97_renamed",
    "C97_filled",
    "C97_merged",
    "C97_prefix",
    "C97_dotted_refuted"
   ],
   "note": "the text of an error is not compared, its kind and the kind of element are"
  },
  {
   "property": "C98",
   "status": "proved",
   "theorems": [
    "C98_edited",
    "C98_expand",
    "C98_valid",
    "C98_filled",
    "C98_placeholder_refuted"
   ],
   "note": ""
  },
  {
   "property": "C99",
   "status": "proved",
   "theorems": [
    "C99_expand",
    "C99_release",
    "C99_valid",
    "C99_filled",
    "C99_checked_refuted"
   ],
   "note": "Non-interference of base addresses, address and bit offsets and dimIncrements with all the rest of an expansion. The refuted theorem shows that the exception for overflow in checked builds is needed."
  },
  {
   "property": "C100",
   "status": "proved",
   "theorems": [
    "C100_groups",
    "C100_totals",
    "C100_doubling",
    "C100_derived_refuted",
    "C100_any"
   ],
   "note": "Numbers of peripherals, registers and fields, per peripheral and in total, for descriptions without derivedFrom; exponential growth for every n. The refuted theorem shows that derivedFrom changes the numbers. With derivedFrom: the same of the description in which all that is inherited is written in place (C103)."
  },
  {
   "property": "C101",
   "status": "proved",
   "theorems": [
    "C101_peripherals",
    "C101_clusters",
    "C101_registers",
    "C101_fields"
   ],
   "note": "Peripherals are stated of expand itself. Clusters, registers and fields are stated of the meaning of expansion (SpecExpand), which C77 shows to be what expand computes. The example gives one case of each of the four."
  },
  {
   "property": "C102",
   "status": "proved",
   "theorems": [
    "C102_expand",
    "C102_back",
    "C102_all",
    "C102_empty_refuted",
    "C102_derived_refuted"
   ],
   "note": "For every set of arrays written out, in both directions; that it can be done for all; and that it fails backwards with empty arrays and forwards with references."
  },
  {
   "property": "C103",
   "status": "proved",
   "theorems": [
    "C103_complete",
    "C103_unique",
    "C103_forth",
    "C103_back",
    "C103_same",
    "C103_layout",
    "C103_written",
    "C103_ambiguous_refuted",
    "C103_once"
   ],
   "note": "Existence for every expandable description; uniqueness and both directions if references are unambiguous; that it fails otherwise."
  },
  {
   "property": "C104",
   "status": "proved",
   "theorems": [
    "C104_expand",
    "C104_back",
    "C104_completed",
    "C104_names_refuted"
   ],
   "note": "For every set of clusters dissolved, in both directions; and that the conditions on names are needed."
  },
  {
   "property": "C105",
   "status": "proved",
   "theorems": [
    "C105_steps",
    "C105_back",
    "C105_exactly"
   ],
   "note": "Debug arithmetic forwards (Release agrees where Debug succeeds, C84), both modes backwards."
  },
  {
   "property": "C106",
   "status": "proved",
   "theorems": [
    "C106_siblings",
    "C106_exactly",
    "C106_steps"
   ],
   "note": "Both directions. The condition speaks of siblings only; arrays count with the names of their instances."
  },
  {
   "property": "C107",
   "status": "proved",
   "theorems": [
    "C107_enough",
    "C107_needed",
    "C107_total",
    "C107_any",
    "C107_peripherals"
   ],
   "note": "Exact recursion depth of expansion for descriptions without references; a depth that suffices where peripherals only are derived; lower bound with any references."
  }
 ]
}
