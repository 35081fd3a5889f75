# Formal model of rust-embedded/svd in Rocq (Coq 8.16.1)

## 1. What is modelled

The three crates are modelled function by function, from reading `/repo` as text. Every definition of the model cites the
lines it stands for.

| theory | Rust source | content |
| --- | --- | --- |
| `Base.v` | core/std | outcome type `res`, machine arithmetic, string functions, `sort_by_key` as stable sort |
| `Num.v` | svd-parser/types.rs, svd-encoder/config.rs | number grammar, booleans, number formatting |
| `Types.v` | svd-rs/*.rs | data types, enumeration texts |
| `Names.v`, `Validate.v` | svd-rs/lib.rs, `validate`, `validate_all` everywhere | name checkers, validation |
| `Builders.v` | svd-rs/*.rs | builders, `build`, `modify_from` |
| `Derive.v` | svd-rs/derive_from.rs | inheritance |
| `Arrays.v` | svd-rs/array.rs, bitrange.rs, dimelement.rs, */expand, iterators, lookups | arrays, masks, bit ranges, traversal, lookup by name |
| `Config.v`, `Sort.v` | svd-encoder/config.rs, device.rs, peripheral.rs, register.rs | configuration, `update`, sorting |
| `Xml.v`, `Parse.v` | svd-parser/*.rs | reading a tree |
| `ParseAt.v` | svd-parser/*.rs, lib.rs:119-172 | the same parser with the node of every error; the report of an error |
| `Show.v` | the Error enums of all crates, expand.rs | `Display` texts of errors |
| `Views.v` | access.rs, cpu.rs, single/array/maybe_array, Config of svd-parser | small views and the setters of the options |
| `Encode.v` | svd-encoder/*.rs | writing a tree |
| `Expand.v` | svd-parser/expand.rs | paths, index, `expand`, `expand_properties` |
| `Top.v` | svd-parser/lib.rs, svd-encoder/lib.rs | `parse`, `parse_with_config`, `encode`, `encode_with_config`, byte order mark |
| `Setters.v` | svd-rs/*.rs | the setters of every builder, as calls that are chained |
| `Mutate.v` | svd-rs/*.rs | `get_mut_*`, `registers_mut`, `clusters_mut`, `all_registers_mut` |
| `Serde.v` | svd-rs/*.rs (feature serde) | the serialised form of every type |

`Spec*.v` are the specifications; they refer to the data types, not to the model's functions (exceptions: `SpecRound.v` lifts
the encoder's sorting and case conversion to descriptions, `SpecData.v` uses the type of serialised data). `*Proofs.v`,
`*Facts.v`, `SerdeMore.v`, `SerdePad.v` are proofs; `Prop*.v` hold the property theorems, each followed by
`Print Assumptions`, with the examples that meet their hypotheses.

Every theorem has an instance that meets its hypotheses.  The examples stand in the same file as the theorem; where a file
has one example for several theorems, `CasesA.v` and `CasesB.v` add the missing ones, named `<theorem>_case`.

`Conform.v` compares the model with the repository: every test of `/repo/tests/src` and the two unit tests of the crates, with
their literal XML texts and expected values, as examples about the model. They check the translation from Rust; no property
rests on them.

### Conventions

* `Result` and `Option` stay data. A panic is the explicit value `Panic p` with `p` one of `Overflow`, `OutOfBounds`, `Unwrap`,
  `Unreachable`, `OutOfFuel`. Unbounded recursion in Rust (stack overflow) is `Panic OutOfFuel` for every amount of fuel;
  C38 says that fuel only cuts off and when enough fuel exists, C107 how much is enough.
* Machine integers are `N`; each arithmetic operation the code performs goes through `add32`, `sub32`, ... which take the
  build mode (`Debug` panics on overflow, `Release` wraps). Theorems quantify over the mode.
* Rust `&str` is the Coq `string` of its UTF-8 bytes.
* `&mut` functions return the new value. Iterators are the list of their items, except where the iterator itself is the
  subject (C26: the Vec based iterator is modelled step by step).
* A mutable reference is the place it points to (position in a list, positions on the way down a tree); assigning through it
  gives the container changed at that place.
* `HashMap` is the log of its insertions; a lookup finds the last one under an equal key (a later insert replaces an earlier).
* The XML tree is one type shared by reader and writer: `Elem name attrs children | Text s | Misc` (comments and the like).
* Errors keep their kind and payload; the position is kept in `ParseAt.v` as the path of child numbers from the root, and
  `Show.v` gives the `Display` texts (without the debug text of a path at the end of one message of expand.rs:624).

### Not modelled

* XML text syntax (escaping, entities, encodings): the external crates roxmltree and xmltree are the parameters `document` and
  `print` of `Top.v`. `C60_round_trip` states what it assumes of them.
* `convert_case` (external crate): the case conversion is the parameter `conv` of the encoder.
* `regex` crate: the three expressions of svd-rs/lib.rs are hand-translated to a matcher, proved equal to a grammar (C18).
* serde, serde_derive and its private flatten machinery: modelled by the combinators of `Serde.v` after their documented
  behaviour. Assumed: unknown keys are ignored; a key met twice is an error; `Option` fields without `deserialize_with` may be
  absent, fields with `deserialize_with` and no `default` may not; a flattened `Option` is `None` whenever reading its content
  fails; untagged enumerations try their variants in order; externally tagged ones are maps with one entry; structs without
  flattened fields may be given as sequences, in the order of declaration. Simplified: a format is taken to offer sequences
  wherever serde accepts them (JSON does; YAML does not for the processor), there is one error, and if one entry of a map would fail with an error and another with a panic,
  the order is not modelled.
* Row and column of a node (`text_pos_at`, roxmltree): the parameter `pos` of `parse_document`. `Debug` (except in messages), `Clone`, hashing, memory and
  stack size, file access.
* The deprecated aliases.

## 2. Properties and how they are proved

Statements and theorem names are in `properties.jsonl` and `MANIFEST.json`. A name ending in `_refuted` proves, with a witness,
that the unrestricted claim is false of the code; the theorems beside it say exactly where it holds.

* C01 Number text round trip. Formatter by repeated division, reader by Horner's scheme; induction on digits. `C01_text` fixes prefix, letter case, padding.
* C02 Number grammar of the parser. Recogniser equivalent (iff) to an inductive grammar of number texts; error characterised.
* C03 Enumeration texts are a bijection. Case analysis on constants, string equality for rejection.
* C04 Bit range notations are interchangeable. Arithmetic over N for each notation and each encoder configuration; lookups in the children of the element.
* C05 Bit range reading is exact. Relation `ends` (which notation counts, which numbers) and iff proofs; panic cause exact. `PropIndexes`: what the iterator over the indexes yields, and when it panics.
* C06 dimIndex text grammar. Parser of index texts equivalent (iff) to the inductive relation `index_list`.
* C07 dimIndex round trip. Writer composed with C06; `C07_odd_indexes_refuted` for dashes.
* C08 Range compression of indexes is exact. Result is a range exactly if the list is that range; panic cause exact.
* C09 Array instance names. Names and descriptions pinned by `filled` (two left-to-right passes of `replaced`); shown equal to a one-pass substitution under `plain_template`, and different from it without.
* C10 Array expansion is an arithmetic progression. `nth_error` statements for every index of the expansion; success or the panic otherwise.
* C11 Parsed arrays are safe to expand. Invariant established by every parse function.
* C12 Field bit mask. `N.testbit` characterisation; panic region exact.
* C13 Register bit mask is the union of its fields. Same, union over fields.
* C14 Reset value validation. Decision table as a separate `Prop`, iff.
* C15 Enumerated value(s) validation. Same.
* C16 Field validation. Same.
* C17 Stricter validation accepts less. Monotonicity in the level, element-wise and for trees.
* C18 Name checkers accept exactly the identifier grammar. Matcher equal to a declarative grammar.
* C19 derive_from: own value wins, missing value inherited, identity never inherited. Result of `derive_from` related (iff) to an inheritance relation, record by record.
* C20 derive_from algebra. Idempotence, identity, associativity; the failing configuration is a witness.
* C21 Deriving a single element from an array. Case analysis.
* C22 Builder round trip. Record by record; what is missing gives an error.
* C23 modify_from touches only what the builder sets. Frame: unset members untouched, set members assigned. Modifying twice and modifying with the own builder follow from the same for each way of assigning (`TwiceProofs`, `SelfProofs`).
* C24 Field builder setters: order matters. Setters modelled one by one; order dependence proved. `SpecBits` lists what a chain of calls makes of the bits of a field in modify_from; `BitsProofs`: induction on the calls.
* C25 modify_from cannot turn enumerated values into derived ones. Never assigned, proved for all builders.
* C26 Register traversal is complete and in document order. Stack traversal equals structural pre-order; induction on tree size.
* C27 Lookup by name. First match by name in traversal order.
* C28 Sorting when encoding is a stable reordering. Sorting succeeds with `out` iff `out` is the unique stable reordering of the specification.
* C29 Reverse offset sorting is descending. Refutations beyond 2^31 and the exact region.
* C30 Element paths: print, parse, compare. Split/join lemmas.
* C31 The derivation index finds every element. Index as fold: sound, complete, last one wins.
* C32 Expansion leaves nothing to expand. Invariant on the result.
* C33 Expansion never hits its unreachable branch. No run ends in the unreachable branch; the panics that remain are listed.
* C34 Expansion of clusters and arrays gives the right names and addresses. Layout of the result as a relation on names and addresses.
* C35 Expansion is idempotent. Flat descriptions are fixed points.
* C36 Expansion changes nothing else. Frame for everything but peripherals.
* C37 Derivation semantics of expand. Meaning relation `means` (chains of references) independent of fuel and lookup order.
* C38 Expansion terminates when following references ends. Fuel monotonicity; termination from accessibility or a numbering of references; witnesses for cycles. `BoundProofs`: the same induction with the numbers kept, so that a sufficient depth is computed; finitely many elements give the bounds.
* C39 expand_properties: nearest level wins. Nearest level relation.
* C40 expand_properties: frame and idempotence. Frame and idempotence.
* C41 Device round trip. Per element `parse (encode x) = Ok x`, composed by induction on the cluster tree. Conversely (`CleanProofs`) what was read has only trimmed texts, so what is written from it has no blank ones, and then what is read back fits.
* C42 Component round trips. Same, per component.
* C43 Encoder formatting options do not change meaning. Result related to the input by `device_like`.
* C44 A parsed device is a valid device. Invariant of parse functions: every element of the result is valid.
* C45 Parsing ignores layout. Documents equal up to comments and blank text are read alike.
* C46 ignore_enums only drops enumerations. Simulation between the two configurations.
* C47 Byte order mark. Prefix arithmetic.
* C48 Parser does not panic. Cause of every panic of the parser.
* C49 Encoder configuration by name. Table of all options as specification, iff.
* C50 Serde round trip of whole devices. Per type `get (put x)`, composed by induction; what is lost is the function `b_device` of the specification.
* C51 modify_from is not atomic. Witness; success implies validity.
* C52 Structural validation. Decision table.
* C53 Whole-tree validation is element-wise. Tree validity is element-wise.
* C54 Validation never panics. No panic for all inputs.
* C55 White space around text is exactly what is ignored. Trim characterised and unique.
* C56 Parsed documents survive rewriting. Composition of C41 with what parsing guarantees.
* C57 Name formats convert names and same-kind references only. `SpecNamed` copies a description with the names of each kind in another case; written documents parse to an arranged (C43) and then renamed description; chains of references among siblings are followed in the renamed description; witness for references that are paths.
* C58 What makes expansion fail. Cause of each failure of expansion.
* C59 Boolean texts. Iff with the boolean texts.
* C60 The entry points deliver what the configuration asks for. Entry points composed from the parts; external crates as parameters, assumed to agree on the written tree up to layout (C45). `SpecMarkup.v` has a concrete indenting writer and a reader; `C60_text` shows that they meet the assumption for every device (structure of the output from C74).
* C61 Validity and expansion. Preservation proof and five witnesses. With derivedFrom, by C103: of the completed description (`PropAny`).
* C62 The order of entries in a serialised device is irrelevant. Reading invariant under deep permutation of maps.
* C63 When serialising and deserialising panic. Writing: exact; reading: necessary cause, for all data.
* C64 What a deserialised device is guaranteed to be. Invariant of reading; stability from C50.
* C65 Bit range constructors are exact. Iff with the relation `bracketed` and the arithmetic relation `span`.
* C66 Foreign keys are ignored. Reading invariant under adding entries with foreign keys.
* C67 Assigning through a mutable lookup. Places; iff with 'the first match is replaced'; lens laws.
* C68 Rewriting every register of a tree. The stack of places run over a changing tree simulates a relation on trees; fuel monotone; relation total and functional.
* C69 Enumerations by usage and the default value. Iff with 'first that is used so'.
* C70 Locating an error changes nothing else. The located parser, positions erased, is the parser of `Parse.v`, function by function.
* C71 A reported error is true of the node it is reported at. Predicate `fault` says for each error what is then true of the node; proved for every parse function by composition.
* C72 The report of an error names the way to it. Path to the node by induction on the place; lines as inductive relations on the nodes of the path.
* C73 Which document means which description. `SpecRead.v` says for every element which child or attribute each part of the description comes from and how its text is read; equivalence with each parse function, both directions.
* C74 Written documents follow the content models of the format. `SpecOrder.v` tabulates the content models of the format; every encode function shown to follow its row, by composition.
* C75 Which serde form means which description. `SpecKeys.v` says for every map which key each part comes from and how its value is read, and the order of the fields where a sequence is accepted too; equivalence with each deserializer, both directions.
* C76 Written serde forms have one layout. `SpecKeys.v` tabulates keys, order and shapes; every serializer shown to follow its row, by composition.
* C77 Expansion does exactly what the description means. `SpecExact.v` says when paths are unambiguous. Every piece of the meaning of C37 is shown single-valued (`ExactProofs.v`); then, following the meaning bottom-up, the code is shown to reach it from some depth on (`ExactReach.v`), including that the index can be made at all.
* C78 Error messages can always be made and tell the error. `Show.v` gives the text of every error. `ShowProofs.v`: the one text that computes something (end of a range minus one) is never made for an empty range; `ShowMore.v`: texts of different errors differ. `PropTold`: the kind named by a message from C81; what is quoted, and that it is quoted as a word, by cases on the error.
* C79 An expanded device can be saved and loaded again. `AgainProofs.v` shows by induction over the declarative expansion (C37) that every text, number and list of the result is one the writer keeps (`device_fits`); `FillProofs.v` the same for filled-in properties; then C41.
* C80 Parsed and expanded devices survive the serde form. `SurviveProofs.v` shows that parsing and expansion keep every number, range and index list within what the serde form holds (`device_holds`); then C50.
* C81 Errors of expansion are true. `SpecRefuse.v` says what it is for a reference to lead nowhere or back, and which elements, own and inherited, are expanded in which context. Induction over the derive functions and over expansion (`RefuseProofs.v`), with completeness of the index; the converse from C77.
* C82 What makes writing a device panic. `SpecWriting.v` lists what cannot be written. Every function of the encoder is shown to panic exactly for the reasons in its part of the device (`WritingProofs.v`, one composition lemma for sequencing and one for lists).
* C83 Building an element call by call. `SpecCalls.v` says what a chain of calls asks for, attribute by attribute (the last call that sets it), and gives the meaning of the calls about the bits of a field. Each attribute of the builder follows the last call by one induction on the chain (`CallProofs.v`).
* C84 Debug and release builds agree until an arithmetic overflow. Relation `same_build` (`SpecMode.v`): equal, or the first is an overflow panic. Shown to be preserved by every combinator of the model, then by every function that takes the build mode (`ModeProofs.v`).
* C85 Resolving properties and expanding together. `SpecLeaves.v` lists the registers a description stands for, with the properties of each, as an inductive relation with a stack of defaults. Filling in is C39; that expansion copies properties unchanged and in order is an induction on fuel (`LeafProofs.v`).
* C86 Order of elements and bit range notation do not change what expansion gives. `SpecAlike.v` relates devices up to permutation of siblings and bit range notation, and says when siblings are apart. `AlikeProofs.v` transports the meaning relation of C77 along this relation, level by level; with C77 this carries over to the expander, and with C43 to written devices.
* C87 Which error validation reports. `SpecBreach` lists the rules of each kind of element with their errors, in order, and the elements of a tree in the order of checking; `BreachProofs` shows each check goes through its list (`first_bad`), that a list gives one outcome, and by induction on the tree that `validate_all` goes through the walk.
* C88 Expansion keeps the bits of every register. `SpecKept` lists the registers each element stands for, next to the registers of the expanded device; `KeptProofs` pairs them by induction on the tree and compares fields, bits (`field_covers`) and masks (`N.testbit`, from C13). With derivedFrom, by C103: the same of the completed description (`PropAny`).
* C89 An access allows what its word says; options are what was last set. `Views.v` models the small functions. The words of an access are compared with what they allow (`occurs`), through the XML element and serde; options by induction on the list of calls.
* C90 A description survives any chain of saving and loading. `SpecTravel` has the ways to save and load, and chains of them. Induction on the chain from C41 and C50; `TravelProofs` shows that what serde gives back (`b_device`) suits every way the original suits, and is given back unchanged.
* C91 Filling in properties and expanding can be swapped where clusters say nothing new. `SpecSwap` says that clusters add nothing. `SwapProofs` relates the two indexes entry by entry (they agree about fields and enumerations, which is all that a device without other derivations looks up) and pushes the filling in through every step of the expansion, by induction on the depth. With derivedFrom, by C103: the same of the completed description (`PropAny`).
* C92 The expansion of a peripheral depends on nothing but what it refers to. `SpecUnion` has interleavings and names in common. `UnionProofs`: every entry of the index belongs to a peripheral with a name of its own; what is found in the index of a part is found in the index of the whole, so each step that succeeds with the part gives the same with the whole.
* C93 Registers can be found by name after expansion. C27 and C34; `FindProofs` shows that the layout of C34 is unique, so that names that differ in the description differ in the expanded device. With derivedFrom, by C103: the same of the completed description (`PropAny`).
* C94 The level of validation decides what is accepted, never what is read. `SpecLevel` says what is asked for beside whole-tree validation. With C73 both sides are statements about the relation of `SpecRead`; `LevelProofs` replaces the level in it part by part, by induction on the tree.
* C95 Leaving out enumerations leaves the rest of an expansion as it is. `bare_device` (C46) says what is left out. `BareProofs` runs both expansions side by side: the index of one is the image of the index of the other, and so is each step; the errors of following references between enumerated values are shown to blame such values.
* C96 Registers with room of their own keep it when expanded. `SpecRoom.v`: the room of an element as a function of the tree, siblings apart and arrays spaced on every level. From C34's layout: every register lies within the stretch of each element around it (induction on the layout), so disjoint stretches stay disjoint; a too small step gives two overlapping instances; a wrapped offset as the counterexample in release mode. With derivedFrom, by C103: the same of the completed description (`PropAny`).
* C97 Peripherals can be given a prefix before an expansion or after it. `SpecRename.v` defines the renaming on descriptions, counting the dots of references. A simulation through the index, the parsing of paths, the derivations and the expansion: keys and references renamed alike are equal exactly when they were, and filling in an index leaves the prefix alone. Putting together: with C92.
* C98 Explanatory texts decide nothing. `SpecDocs.v` defines a rewriting of all texts on descriptions. The same simulation as for C97, with equal errors; leaving the texts out gives the pair of descriptions in common, from which non-interference follows. Validation: element by element.
* C99 Addresses, bit positions and array steps decide nothing but addresses and bit positions. `SpecPlaces.v` sets the numbers to zero. One simulation between a description and its zeroed copy, which cannot overflow: each step overflows in a checked build or gives the zeroed result. Two descriptions with one zeroed copy then agree.
* C100 How much an expansion gives. `SpecSize.v` counts by multiplying dimensions. Induction over the layout of C34, of which the counts are lengths; the tower of nested clusters expands by C58. With derivedFrom, by C103: the same of the completed description (`PropAny`).
* C101 What has no content of its own has that of what it is derived from. `SpecShare.v` says what it is to take the content of another. The chain ends in the origin, so the nearest content is its content and its place; by uniqueness of what content in a place expands to (C77), both expand it to the same.
* C102 An array is short for its elements written one after another. `SpecWritten.v` says what writing out is, by the instances of SpecExpand. Without references no function uses the index or the path, so the parts of a written-out element expand to what the element does; induction over the depth. The index exists because it needs nothing but the names of the arrays that are left.
* C103 Expansion in two steps: what is derived first, arrays and clusters then. `SpecComplete.v` says what the completed description is, with the chains and origins of SpecExpand but without instances. From an expansion the completed parts are read off level by level (`complete_*`); they expand as before since nothing in them is derived, whatever the index. Uniqueness and the way back go through the declarative meaning (`device_completed_fun`, `device_back`) and its reach (C77).
* C104 A cluster is short for what it contains. `SpecOpen.v` says what it is to put a child beside its cluster and to dissolve a cluster, with sums of addresses and names written out. Hoisting twice is hoisting once with the sum and the longer name (`hoists_hoists`), in both modes as far as there are results; then induction over how the clusters are dissolved, in each direction.
* C105 Expansion is three steps: inherit, repeat, dissolve. Composition of C103, C102 and C104: without arrays every cluster can be dissolved from the inside (`dissolve_device`), which gives the expansion itself; backwards by `dissolved_back`, `expand_written_back` and `complete_back` from the expanded device, which expands to itself (C35).
* C106 References are unambiguous exactly if siblings have different names. `SpecDistinct` states the condition level by level. `DistinctProofs`: a path determines the block it leads to, by induction on the path; the other way, siblings that share a name share a path. With C77 and C103.
* C107 Without references expansion goes exactly as deep as the description is nested. `SpecDepth` counts the levels of a description. `DepthProofs`: without references two depths that reach the number of levels give the same result, and a depth that gives a device reaches it, both by induction on registers and clusters; that the result is not a lack of depth comes from C38, that it is a device or an overflow from C58, and the lower bound with references from C103. `DeepProofs`: where peripherals only are derived, a number that falls along references bounds the chain, and what is inherited is nested no deeper than the description. A level of the model is a call for a register or cluster from the one around it.

## 3. Findings about the code

Each is a theorem (in brackets) about the model.

* `BitRange` written as bitRange or lsb/msb with offset+width = 2^32 panics in debug builds [C04_debug_edge_refuted].
* The bit mask of a register with a field array reaching above bit 63 computes before expansion and panics (or has wrong low bits, unchecked) after it [C88_high_refuted].
* bitRange 0 to 4294967295 overflows when read: panic in debug, width 0 in release [C05_full_range].
* Index lists with both "0" and "4294967295" make `indexes_as_range` panic in debug builds [C08_only_panic].
* Index texts with a dash or comma do not round trip [C07_odd_indexes_refuted, C50_dash_refuted].
* A zero-width field has the all-ones mask in release builds [C12_release_zero_width].
* Associativity of `derive_from` fails for arrays in one configuration [C20_chain_refuted].
* `FieldInfoBuilder::bit_offset` tests the wrong member: setters do not commute [C24_commute_refuted], and in modify_from an earlier offset or width can win over a later one [C24_last_wins_refuted].
* Modifying a derived register with its own builder drops its size, reset value and fields [C23_self_refuted].
* `EnumeratedValues::modify_from` never assigns derivedFrom [C25_derived_refuted]; `modify_from` is not atomic [C51_atomic_refuted].
* Reverse offset sorting is wrong from 2^31 on and panics in debug builds [C29_descending_refuted, C29_panic_refuted].
* A reference with two parts on a field panics [C30_two_parts_refuted, C58_unwrap].
* `BlockPath::name` panics on the path of a peripheral; expansion never asks for it [C30_peripheral_refuted].
* Relative references of inherited content can be looked up in the wrong element [C37_origin_refuted].
* Cyclic references, and references into the own content, recurse without end [C38_cycle_refuted, C38_nested_refuted].
* A comment before a text hides it [C45_comment_before_text_refuted].
* A writeConstraint without element child panics the parser [C48_write_constraint_refuted]; so does a wide enough field
  [C48_wide_field_refuted].
* Only one byte order mark is removed [C47_twice_refuted].
* `Config::update` panics on a text that is no value [C49_panic].
* Name formats make dotted references dangle [C57_references_refuted].
* A prefix with a dot put before the names of peripherals and the references to them breaks references: paths are split at dots [C97_dotted_refuted].
* Expansion and filling in properties do not re-validate [C61_*_refuted].
* Serde: arrays without an index list come back as single elements [C50_unindexed_refuted]; the attributes of the XML root are
  lost [C50_header_refuted]; nothing is validated [C64_unvalidated_refuted]; reversed bit ranges panic in debug builds and wrap
  in release builds [C65_panics, C63_read].
* An error inside a cluster is reported without naming the cluster [C72_report, C72_case].
* `from_bit_range` ignores everything after a second colon and accepts a plus sign [C65_text].
* A register derived from a wider one with its own size keeps the inherited reset value: the expanded device is written
  to a file that is refused when read [C79_invalid_refuted].
* Index texts keep white space (`A, B`), so names of instances begin with a space, which is lost when the expanded device is
  written and read [C79_blank_index_refuted].
* A field array with dim 0 leaves an empty field list, which comes back as no list [C79_no_instance_refuted].
* A chain of references is taken for a loop when it passes through a namesake: with T0.A derived from T1.B and T1.B derived
  from its sibling T1.A, which is derived from nothing, expansion fails with "Register T1.A is self-derived". The test compares
  the block with that of the previous element of the chain but the name with that of the first. Likewise for clusters and
  fields; peripherals are right [C81_self_refuted, C81_loop].
* An array with fewer listed indexes than elements passes every validation, and writing it panics in both build modes if the
  indexes are numbers, though not otherwise [C82, `C82_example`].
* The message about a badly formed name does not say which tag it was in, although the error records it; the messages of
  svd-rs errors begin with a backquote that is never closed [C78, `C78_name_tag`].
* After an arithmetic overflow a release build goes on: registers of an array wrap around to addresses near zero
  [C84_always_refuted].
* Filling in properties skips derived peripherals, clusters and registers, and nothing fills them in later: after both
  options a register stated inside a derived peripheral has no size even if the device gives one, and an inherited register
  has the size of the peripheral it comes from although the derived peripheral states another [C85_derived_refuted].
* Two peripherals with one name: what is derived from that name is derived from the later one, even if it comes after [C92_shared_refuted].
* The names of registers from different clusters can clash once joined (`A`/`B_C` and `A_B`/`C`); expansion does not notice, and lookup finds the first
  [C93_clash_refuted].
* `validate_all` does not look at the values of a dimArrayIndex, which the parser does validate: a device that `validate_all` accepts may come from a
  document that the parser refuses at the same level [C94_tree_refuted].
* Calling `expand` before `expand_properties` loses the defaults of clusters [C85_other_order_refuted]. Inherited registers too
  get other defaults in the other order, even without clusters [C91_derived_refuted].
* Two peripherals of one name make expansion depend on their order: a reference silently takes the last
  [C86_ambiguous_refuted].

## 4. Trusted base

* The kernel of Coq 8.16.1 (`coqc`, and `coqchk` run by the gate).
* Axioms: none. `Print Assumptions` under every property theorem prints "Closed under the global context". The checker
  `coqchk -o` also lists seven constants of the standard library file `Coq.ssr.ssrunder` (`Under_rel.Under_rel`,
  `Under_rel.Under_rel_from_rel`, `Under_rel.Under_relE`, `Under_rel.under_rel_done`, `Under_rel.Over_rel`,
  `Under_rel.over_rel`, `Under_rel.over_rel_done`): these are the parameters of a sealed module type of that file, loaded with the
  standard library, and used by no theorem here.
* The reading of `/repo` recorded in the comments of the model, and the conventions and omissions of section 1.
* That the specifications say what the English statements say. `seeded/LOG.jsonl` records edits of the model as realistic bugs
  would make them, and which theorems then fail.

## 5. Print Assumptions

For every theorem listed here the output is "Closed under the global context".

* C01: `C01_number_round_trip`, `C01_text`
* C02: `C02_number_grammar`, `C02_number_error`
* C03: `C03_enum_texts`
* C04: `C04_round_trip`, `C04_offset_width`, `C04_release_edge`, `C04_debug_edge_refuted`
* C05: `C05_ends`, `C05_reversed`, `C05_size`, `C05_only`, `C05_full_range`, `C05_no_other_panic`
* C06: `C06_index_grammar`
* C07: `C07_list_text`, `C07_range_text`, `C07_round_trip`, `C07_written`, `C07_odd_indexes_refuted`
* C08: `C08_range_exact`, `C08_only_panic`, `C08_indexes`, `C08_listed`
* C09: `C09_names`, `C09_descriptions`, `C09_substitution_unique`, `C09_names_total`, `C09_one_pass`, `C09_two_passes_refuted`
* C10: `C10_field_expand`, `C10_register_expand`, `C10_cluster_expand`, `C10_peripheral_expand`, `C10_succeeds_or_panics`
* C11: `C11_arrays`, `C11_names`, `C11_parts`
* C12: `C12_field_bitmask`, `C12_panics_outside`, `C12_release_zero_width`
* C13: `C13_register_bitmask`, `C13_panics_outside`, `C13_no_fields`
* C14: `C14_reset_value`
* C15: `C15_value`, `C15_values`
* C16: `C16_field`
* C17: `C17_element`, `C17_device`, `C17_peripheral`, `C17_register_cluster`, `C17_field`
* C18: `C18_name`, `C18_arrayable`, `C18_derived`
* C19: `C19_properties`, `C19_values`, `C19_field`, `C19_register`, `C19_cluster`, `C19_peripheral`
* C20: `C20_infos`, `C20_elements`, `C20_chain`, `C20_chain_refuted`
* C21: `C21_single_from_array`, `C21_info`
* C22: `C22_value`, `C22_values`, `C22_dim`, `C22_field`, `C22_register`, `C22_cluster`, `C22_peripheral`, `C22_simple`, `C22_device`, `C22_tidy_valid`, `C22_missing`, `C22_missing_device`, `C22_missing_rest`
* C23: `C23_simple`, `C23_register`, `C23_cluster`, `C23_peripheral`, `C23_device`, `C23_frame`, `C23_identity`, `C23_twice`, `C23_self`, `C23_self_refuted`
* C24: `C24_offset_then_width`, `C24_after_range`, `C24_width_then_offset_fails`, `C24_offset_twice`, `C24_commute_refuted`, `C24_modify`, `C24_last_wins_refuted`
* C25: `C25_never`, `C25_emptied`, `C25_derived_refuted`
* C26: `C26_all_registers`, `C26_only_that`, `C26_one_order`, `C26_complete`, `C26_direct`
* C27: `C27_register`, `C27_cluster`, `C27_absent`, `C27_others`
* C28: `C28_same_elements`, `C28_peripherals`, `C28_fields`, `C28_registers`, `C28_unique`, `C28_idempotent`, `C28_total`
* C29: `C29_below_2_31`, `C29_descending_refuted`, `C29_panic_refuted`, `C29_panic_exact`, `C28_fields`, `C28_registers`
* C30: `C30_print`, `C30_compare`, `C30_parse`, `C30_round_trip`, `C30_two_parts_refuted`, `C30_parent`, `C30_peripheral_refuted`
* C31: `C31_sound`, `C31_complete`, `C31_unique`, `C31_last`
* C32: `C32_flat`
* C33: `C33_reachable`, `C33_panics`
* C34: `C34_layout`
* C35: `C35_idempotent`, `C35_identity`, `C35_fixed`, `C35_image`
* C36: `C36_frame`
* C37: `C37_meaning`, `C37_peripheral`, `C37_cluster`, `C37_register`, `C37_field`, `C37_values`, `C37_missing`, `C37_origin_refuted`
* C38: `C38_fuel`, `C38_terminates`, `C38_acyclic`, `C38_cycle_refuted`, `C38_nested_refuted`, `C38_bound`, `C38_bounded`
* C39: `C39_filled`
* C40: `C39_filled`, `C40_twice`
* C41: `C41_round_trip`, `C41_default`, `C41_exact`, `C41_distinct`
* C42: `C42_parts`, `C42_field`, `C42_register_cluster`, `C42_peripheral`
* C43: `C43_meaning`, `C43_written`, `C43_numbers`
* C44: `C44_valid`, `C44_validate_all`
* C45: `C45_layout`, `C45_parts`, `C45_comment_before_text_refuted`
* C46: `C46_ignore_enums`
* C47: `C47_mark`, `C47_trim`, `C47_twice_refuted`
* C48: `C48_panics`, `C48_no_panic`, `C48_write_constraint_refuted`, `C48_wide_field_refuted`
* C49: `C49_known`, `C49_panic`, `C49_unknown`, `C49_options`, `C49_order_total`, `C49_default`, `C49_setters`
* C50: `C50_round_trip`, `C50_identity`, `C50_exact`, `C50_distinct`, `C50_indexes`, `C50_unindexed_refuted`, `C50_header_refuted`, `C50_dash_refuted`
* C51: `C51_atomic_refuted`, `C51_success_valid`, `C23_frame`
* C52: `C52_structural`
* C53: `C53_device_tree`, `C53_register_cluster_tree`
* C54: `C54_no_panic`
* C55: `C55_trim`, `C55_unique`
* C56: `C56_reread`
* C57: `C57_named`, `C57_styles`, `C57_converted`, `C57_peripheral_references`, `C57_cluster_references`, `C57_register_references`, `C57_field_references`, `C57_references_refuted`
* C58: `C58_bounds`, `C58_parsed`, `C58_unwrap`, `C58_errors`, `C58_total`, `C58_short_refuted`
* C59: `C59_boolean`, `C59_boolean_error`
* C60: `C60_expanded`, `C60_valid`, `C60_filled`, `C60_missing`, `C60_panics`, `C60_round_trip`, `C60_text`, `C60_default`
* C61: `C61_stays_valid`, `C61_register_refuted`, `C61_field_refuted`, `C61_filled_refuted`, `C61_emptied_refuted`, `C61_strict_refuted`, `C61_any`
* C62: `C62_order`
* C63: `C63_write`, `C63_read`
* C64: `C64_ranges`, `C64_checked`, `C64_stable`, `C64_unvalidated_refuted`
* C65: `C65_text`, `C65_refused`, `C65_panics`, `C65_ends`, `C65_round_trip`
* C66: `C66_foreign_keys`
* C67: `C67_replaced`, `C67_none`, `C67_read_back`, `C67_each`
* C68: `C68_all_replaced`, `C68_only_that`, `C68_same_walk`, `C68_written`
* C69: `C69_by_usage`, `C69_assign`, `C69_one_usage`, `C69_default`
* C70: `C70_same_parser`
* C71: `C71_true_where_reported`, `C71_levels`
* C72: `C72_report`
* C73: `C73_device`, `C73_parts`, `C73_unique`, `C73_written`
* C74: `C74_device`, `C74_parts`
* C75: `C75_device`, `C75_parts`, `C75_unique`, `C75_written`
* C76: `C76_device`, `C76_parts`
* C77: `C77_unique`, `C77_complete`, `C77_exactly`, `C77_meaningless`, `C77_ambiguous_refuted`
* C78: `C78_parse_shown`, `C78_expand_shown`, `C78_validate_shown`, `C78_build_shown`, `C78_modify_shown`, `C78_only_panic`, `C78_parse_unambiguous`, `C78_expand_unambiguous`, `C78_range_message`, `C78_expand_words`, `C78_quotes`, `C78_quotes_words`
* C79: `C79_reread`, `C79_plain`, `C79_filled`, `C79_both`, `C79_files`, `C79_invalid_refuted`, `C79_blank_index_refuted`, `C79_no_instance_refuted`
* C80: `C80_parsed`, `C80_parsed_checked`, `C80_expanded`, `C80_expanded_checked`, `C80_deserialised`
* C81: `C81_true`, `C81_never`, `C81_no_peripheral`, `C81_absent`, `C81_loop`, `C81_self_refuted`
* C82: `C82_exact`, `C82_text`, `C82_parsed`, `C82_default`
* C83: `C83_props`, `C83_value`, `C83_values`, `C83_dim`, `C83_field`, `C83_register`, `C83_cluster`, `C83_block`, `C83_interrupt`, `C83_peripheral`, `C83_cpu`, `C83_device`, `C83_swap`, `C83_complete`, `C83_given_value`, `C83_given_values`, `C83_given_dim`, `C83_given_field`, `C83_given_register`, `C83_given_cluster`, `C83_given_block`, `C83_given_interrupt`, `C83_given_peripheral`, `C83_given_cpu`, `C83_given_device`, `C83_copy`, `C83_changed`
* C84: `C84_parse`, `C84_report`, `C84_expand`, `C84_encode`, `C84_serde`, `C84_elements`, `C84_messages`, `C84_always_refuted`
* C85: `C85_properties`, `C85_complete`, `C85_other_order_refuted`, `C85_derived_refuted`
* C86: `C86_expand`, `C86_symmetric`, `C86_apart`, `C86_kept`, `C86_written`, `C86_ambiguous_refuted`
* C87: `C87_properties`, `C87_value`, `C87_values`, `C87_field`, `C87_register`, `C87_cluster`, `C87_peripheral`, `C87_device`, `C87_one_verdict`, `C87_device_all`, `C87_peripheral_all`, `C87_child_all`, `C87_field_all`, `C87_values_all`, `C87_walk`
* C88: `C88_fields`, `C88_bits`, `C88_masks`, `C88_disjoint`, `C88_high_refuted`, `C88_derived_refuted`, `C88_any`
* C89: `C89_access`, `C89_word`, `C89_element`, `C89_serde`, `C89_some`, `C89_once`, `C89_family`, `C89_maybe`, `C89_either`, `C89_options`, `C89_defaults`
* C90: `C90_chain`, `C90_settles`, `C90_expanded`
* C91: `C91`, `C91_derived_refuted`, `C91_any`
* C92: `C92_union`, `C92_added`, `C92_shared_refuted`
* C93: `C93_find`, `C93_found`, `C93_clash_refuted`, `C93_any`
* C94: `C94_level`, `C94_weaker`, `C94_tree_refuted`
* C95: `C95_expand`, `C95_options`, `C95_values_refuted`
* C96: `C96_blocks`, `C96_device`, `C96_crowded`, `C96_release_refuted`, `C96_any`
* C97: `C97_renamed`, `C97_filled`, `C97_merged`, `C97_prefix`, `C97_dotted_refuted`
* C98: `C98_edited`, `C98_expand`, `C98_valid`, `C98_filled`, `C98_placeholder_refuted`
* C99: `C99_expand`, `C99_release`, `C99_valid`, `C99_filled`, `C99_checked_refuted`
* C100: `C100_groups`, `C100_totals`, `C100_doubling`, `C100_derived_refuted`, `C100_any`
* C101: `C101_peripherals`, `C101_clusters`, `C101_registers`, `C101_fields`
* C102: `C102_expand`, `C102_back`, `C102_all`, `C102_empty_refuted`, `C102_derived_refuted`
* C103: `C103_complete`, `C103_unique`, `C103_forth`, `C103_back`, `C103_same`, `C103_layout`, `C103_written`, `C103_ambiguous_refuted`, `C103_once`
* C104: `C104_expand`, `C104_back`, `C104_completed`, `C104_names_refuted`
* C105: `C105_steps`, `C105_back`, `C105_exactly`
* C106: `C106_siblings`, `C106_exactly`, `C106_steps`
* C107: `C107_enough`, `C107_needed`, `C107_total`, `C107_any`, `C107_peripherals`
