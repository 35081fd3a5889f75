{"id": "C01", "title": "Number text round trip", "statement": "Whatever number format the encoder is configured with (Dec, Bin, UpperHex, UpperHex8, UpperHex16, LowerHex, LowerHex8, LowerHex16), the text it writes for an integer is read back by the parser as the same integer, for u32 and for u64 positions. The text has the documented prefix, letter case and padding, and no other leading zeros.", "quantifier": "all 8 number formats, all u32 values and all u64 values", "why_tests_cant": "2^64 values times 8 formats; tests sample a handful of literals.", "anchors": ["svd-encoder/src/config.rs: format_number, NumberFormat", "svd-parser/src/types.rs: Parse for u32, u64"]}
{"id": "C02", "title": "Number grammar of the parser", "statement": "The parser accepts a number text exactly when, after trimming, it is a decimal numeral (optional plus sign), 0x/0X + hex numeral, #/0b + binary numeral in which x digits stand for 0, and the denoted value fits the target width; the result is the denoted value; anything else is an error and never a panic. The error says what is wrong: empty when nothing stands where the digits should be, invalid digit when a character that is no digit comes (or only a sign) before the number became too large, too large when the first digits alone exceed the width.", "quantifier": "all byte strings, both widths", "why_tests_cant": "The set of texts is infinite; acceptance, denotation and the kind of error must be characterised for all of them.", "anchors": ["svd-parser/src/types.rs: u32::parse, u64::parse, BoolParse"]}
{"id": "C03", "title": "Enumeration texts are a bijection", "statement": "For every SVD enumeration (access, usage, dataType, endian, readAction, modifiedWriteValues, protection, addressBlock usage) the parser accepts exactly the texts the encoder writes (plus documented aliases) and reading a written text gives the original constant.", "quantifier": "all constants and all strings", "why_tests_cant": "Rejection must hold for every other string, an infinite set.", "anchors": ["svd-rs/src/access.rs", "svd-rs/src/usage.rs", "svd-rs/src/datatype.rs", "svd-rs/src/endian.rs", "svd-rs/src/readaction.rs", "svd-rs/src/modifiedwritevalues.rs", "svd-rs/src/protection.rs", "svd-rs/src/addressblock.rs"]}
{"id": "C04", "title": "Bit range notations are interchangeable", "statement": "A bit range with width at least 1 and offset+width below 2^32, written in any of the three notations (bitRange, bitOffset/bitWidth, lsb/msb) by any configuration of the encoder, reads back with the same offset and width and the notation that was written; with bitOffset/bitWidth this holds for every u32 offset and width. When offset+width is exactly 2^32 (msb 4294967295) the release build still round-trips but a debug build panics on overflow.", "quantifier": "all offsets, widths, notations, encoder configurations, surrounding children and overflow modes", "why_tests_cant": "2^64 ranges; off-by-one and overflow corners are not sampled.", "anchors": ["svd-rs/src/bitrange.rs", "svd-parser/src/bitrange.rs", "svd-encoder/src/bitrange.rs"]}
{"id": "C05", "title": "Bit range reading is exact", "statement": "When a bit range is read from an element, the lsb and msb of the result are the ones written in whichever notation has priority (bitRange, then lsb+msb, then bitOffset+bitWidth); a range whose lsb exceeds its msb is refused with an error; a bitRange/lsb-msb result never has width zero; the only panic/wrap is the full 0..u32::MAX range.", "quantifier": "all XML elements", "why_tests_cant": "Every combination of present tags and every pair of numbers.", "anchors": ["svd-parser/src/bitrange.rs: BitRange::parse", "svd-rs/src/bitrange.rs: from_bit_range"]}
{"id": "C06", "title": "dimIndex text grammar", "statement": "DimElement::parse_indexes turns a-b with numerals into exactly the decimal numerals a..b in order, a-b with two letters of one case into exactly the letters between them, and a text without '-' into its comma separated pieces; every other text, and every empty range, is refused.", "quantifier": "all strings", "why_tests_cant": "Infinite input set and ranges of any length.", "anchors": ["svd-rs/src/dimelement.rs: DimElement::parse_indexes"]}
{"id": "C07", "title": "dimIndex round trip", "statement": "The dimIndex text written for an array whose number of indexes equals dim reads back as the same list of indexes, provided no index contains '-' or ',', the list is not the single empty text and the joined text has no white space at its ends; counterexamples exist when an index contains them.", "quantifier": "all dim values and index lists", "why_tests_cant": "Lists of any length, with range compression deciding the notation.", "anchors": ["svd-encoder/src/dimelement.rs", "svd-rs/src/dimelement.rs: indexes_as_range, parse_indexes"]}
{"id": "C08", "title": "Range compression of indexes is exact", "statement": "DimElement::indexes_as_range answers a..=b if and only if dim is at least 1 and the index texts are precisely the canonical decimal numerals of a, a+1, ..., b. The indexes of an array can be listed exactly if it has at least as many texts as elements, or none at all; there is then one text per element, in order, its number in decimal if the array has no texts.", "quantifier": "all dim elements whose index list is at least dim long", "why_tests_cant": "Lists of any length; leading zeros, gaps, permutations and duplicates all must be refused.", "anchors": ["svd-rs/src/dimelement.rs: DimElement::indexes_as_range, Indexes"]}
{"id": "C09", "title": "Array instance names", "statement": "array::names yields exactly dim names; the i-th is the array name with every placeholder ([%s] or %s) replaced by the i-th index, or the dimArrayIndex name whose value equals that index; descriptions behave likewise.", "quantifier": "all names, dims, index lists and dimArrayIndex tables", "why_tests_cant": "Any dim and any number and position of placeholders.", "anchors": ["svd-rs/src/array.rs: names, descriptions"]}
{"id": "C10", "title": "Array expansion is an arithmetic progression", "statement": "Expanding a field, register, cluster or peripheral array gives exactly dim items in order; item i sits at base + i*dimIncrement, carries the i-th name (and description and display name), and every other attribute equals the array's own, except that a field's bit range is in offset/width notation; in checked arithmetic it panics exactly when an address overflows or an index text is missing.", "quantifier": "all infos, dims and increments, both overflow modes", "why_tests_cant": "All dims, including address wrap-around corners.", "anchors": ["svd-rs/src/field.rs: expand, bit_offsets", "svd-rs/src/register.rs: expand, address_offsets", "svd-rs/src/cluster.rs: expand", "svd-rs/src/peripheral.rs: expand, base_addresses"]}
{"id": "C11", "title": "Parsed arrays are safe to expand", "statement": "Every array (field, register, cluster, peripheral) the parser returns has a name containing %s and, if it lists indexes, exactly dim of them, so asking for its instance names never indexes out of bounds.", "quantifier": "all XML documents the parser accepts, all parser configs", "why_tests_cant": "Ranges over every accepted document.", "anchors": ["svd-parser/src/array.rs: parse_array", "svd-rs/src/array.rs: names"]}
{"id": "C12", "title": "Field bit mask", "statement": "For a field with 1 <= width <= 64 whose bits fit in 64, bit k of the bitmask is 1 exactly when offset <= k < offset+width; for a field array it is 1 exactly when k lies in some instance; outside those bounds checked arithmetic panics.", "quantifier": "all fields and field arrays, all bit positions", "why_tests_cant": "All offsets, widths, dims; per-bit statement.", "anchors": ["svd-rs/src/field.rs: FieldInfo::bitmask, Field::bitmask"]}
{"id": "C13", "title": "Register bit mask is the union of its fields", "statement": "Bit k of a register's bitmask is 1 exactly when some field (or field array instance) of the register covers bit k; a register without fields has mask 0.", "quantifier": "all registers with well formed fields", "why_tests_cant": "Any number of fields.", "anchors": ["svd-rs/src/register.rs: RegisterInfo::bitmask"]}
{"id": "C14", "title": "Reset value validation", "statement": "Register properties are refused exactly when (level not Disabled) the reset value needs more bits than size, or (Strict) the reset mask needs more bits than size, or (Strict) the reset value has a bit outside the mask; nothing else is refused, and absent parts are never refused.", "quantifier": "all register properties and validation levels", "why_tests_cant": "All 64-bit values, masks and sizes.", "anchors": ["svd-rs/src/registerproperties.rs: validate, check_reset_value"]}
{"id": "C15", "title": "Enumerated value(s) validation", "statement": "An enumerated value is refused exactly when it has neither value nor isDefault=true (not Disabled), has both (Strict) or its name is not a valid name (Strict); a set is refused exactly when it is empty and not derived (not Disabled) or a name is bad (Strict).", "quantifier": "all enumerated values, sets, and levels", "why_tests_cant": "Decision table over unbounded data.", "anchors": ["svd-rs/src/enumeratedvalue.rs: validate", "svd-rs/src/enumeratedvalues.rs: validate"]}
{"id": "C16", "title": "Field validation", "statement": "An accepted field (level not Disabled) has width >= 1 and, if narrower than 64 bits, every enumerated value below 2^width and a range write constraint that is ordered and below 2^width; in Strict mode also a valid name, a valid derivedFrom and at most two enumerations with complementary usages; nothing else is refused.", "quantifier": "all fields and levels", "why_tests_cant": "Decision over unbounded data with several interacting parts.", "anchors": ["svd-rs/src/field.rs: FieldInfo::validate", "svd-rs/src/writeconstraint.rs: check_range"]}
{"id": "C17", "title": "Stricter validation accepts less", "statement": "Anything accepted at Strict is accepted at Weak, and anything is accepted at Disabled; this holds for every element type and for whole-tree validation of registers, clusters, peripherals and devices.", "quantifier": "all values of all types", "why_tests_cant": "Whole trees of any depth.", "anchors": ["svd-rs/src/lib.rs: ValidateLevel", "svd-rs/src/*.rs: validate, validate_all"]}
{"id": "C18", "title": "Name checkers accept exactly the identifier grammar", "statement": "Strict name checks accept exactly: plain names over [_A-Za-z0-9]; array-able names that are an identifier with at most one %s placeholder in prefix, suffix or middle position or a trailing [%s]; derived names that are dot separated array-able names.", "quantifier": "all strings", "why_tests_cant": "Infinite set of strings, with a regular expression whose alternatives are easy to misread.", "anchors": ["svd-rs/src/lib.rs: check_name, check_dimable_name, check_derived_name"]}
{"id": "C19", "title": "derive_from: own value wins, missing value inherited, identity never inherited", "statement": "After x.derive_from(y) every inheritable attribute equals x's when x has one and y's otherwise; name, address, position and the derivedFrom marker are always x's.", "quantifier": "all pairs of elements of each derivable type", "why_tests_cant": "All combinations of present and absent attributes.", "anchors": ["svd-rs/src/derive_from.rs"]}
{"id": "C20", "title": "derive_from algebra", "statement": "Deriving from the same source twice changes nothing more and deriving from oneself changes nothing, for every derivable type, single or array. Deriving along a chain is associative, (x<-y)<-z = x<-(y<-z), for all infos and for all elements except in exactly one situation: x is single with %s in its name, y is single without, and z is an array. (The claim without the exception is refuted.)", "quantifier": "all elements of each derivable type", "why_tests_cant": "an algebraic law over all triples of elements; the exception needs one specific combination of shapes and names", "anchors": ["svd-rs/src/derive_from.rs:13-136"]}
{"id": "C21", "title": "Deriving a single element from an array", "statement": "A single element derived from an array becomes an array exactly when its name contains %s, and then takes the source's dim, dimIncrement and dimIndex but not its dimName; an array keeps its own dimensions.", "quantifier": "all single/array combinations", "why_tests_cant": "All data; interaction of names and dims.", "anchors": ["svd-rs/src/derive_from.rs: DeriveFrom for MaybeArray"]}
{"id": "C22", "title": "Builder round trip", "statement": "Turning an element into a builder and building it back gives the same element whenever the element is valid at that level (for types normalising empty texts: up to empty texts becoming absent), and a builder missing mandatory attributes is refused with an error naming the first of them in the order of the checks.", "quantifier": "all elements of each type and all levels", "why_tests_cant": "All field combinations.", "anchors": ["svd-rs/src/*.rs: builder, From<T> for TBuilder, build"]}
{"id": "C23", "title": "modify_from touches only what the builder sets", "statement": "modify_from leaves every attribute the builder does not set unchanged, overwrites those it sets and validates the result; modifying with an empty builder is the identity on valid elements. Modifying again with the same builder changes nothing more and ends the same way, also after an error. Modifying a valid element that is not derived and has no empty texts or lists with its own builder leaves it as it is; a derived register loses its properties and fields that way.", "quantifier": "all elements, builders, levels", "why_tests_cant": "All combinations of set/unset attributes.", "anchors": ["svd-rs/src/*.rs: modify_from"]}
{"id": "C24", "title": "Field builder setters: order matters", "statement": "On a field builder bit_offset then bit_width yields that range, and once a bit range is set the two setters commute and the last value wins. Without a range set, bit_width then bit_offset never yields a buildable field, and calling bit_offset twice uses the first offset as the width; so the claim that the setters commute is refuted. Modifying a field with the builder of any chain of calls: after a bit range the last offset and width win; without one, an offset followed by a width gives a range in which a width asked for earlier wins, and two offsets give a range whose offset stays the first and whose width is the first offset unless a later width is given; otherwise the single offset and the last width replace theirs.", "quantifier": "all builders, offsets and widths", "why_tests_cant": "holds or fails for all values and call orders", "anchors": ["svd-rs/src/field.rs:156-185"]}
{"id": "C25", "title": "modify_from cannot turn enumerated values into derived ones", "statement": "modify_from on enumerated values never changes their derivedFrom: with derivedFrom set in the builder it drops name, usage and values and, for values that were not derived, fails at Weak and Strict leaving them empty. (The claim that the result is derived from the given path is refuted.)", "quantifier": "all enumerated values, builders and levels", "why_tests_cant": "a for-all statement about every builder", "anchors": ["svd-rs/src/enumeratedvalues.rs:111-132"]}
{"id": "C26", "title": "Register traversal is complete and in document order", "statement": "all_registers visits every register of a peripheral or cluster exactly once, at any nesting depth, in document order; registers()/clusters() are the direct children of that kind in order.", "quantifier": "all register/cluster trees", "why_tests_cant": "Trees of unbounded depth and an explicit work stack.", "anchors": ["svd-rs/src/registercluster.rs: AllRegistersIter, RegisterIter, ClusterIter"]}
{"id": "C27", "title": "Lookup by name", "statement": "get_peripheral/get_register/get_cluster/get_field return the first element in document order with exactly that name, and nothing iff there is none.", "quantifier": "all containers and names", "why_tests_cant": "All containers.", "anchors": ["svd-rs/src/device.rs: get_peripheral", "svd-rs/src/peripheral.rs: get_register", "svd-rs/src/register.rs: get_field"]}
{"id": "C28", "title": "Sorting when encoding is a stable reordering", "statement": "For every sorting configuration the encoder writes exactly the same multiset of elements; they are ordered by the requested key, with equal keys keeping document order, non-derived elements first when requested and registers before clusters when requested; sorting twice equals sorting once.", "quantifier": "all lists of peripherals/registers/clusters/fields, all sorting configs", "why_tests_cant": "Lists of any length.", "anchors": ["svd-encoder/src/device.rs: sort_peripherals", "svd-encoder/src/peripheral.rs: sort_register_cluster, sort_derived_register_cluster", "svd-encoder/src/register.rs: sort_derived_fields"]}
{"id": "C29", "title": "Reverse offset sorting is descending", "statement": "With OffsetReversed the elements are written by descending address when every address is below 2^31. Beyond that the promise fails, and the failure is characterised: a release build writes a lower address before a higher one, and a debug build panics exactly when two or more elements are sorted and one has an address whose low 32 bits are 0x80000000.", "quantifier": "all lists, all addresses", "why_tests_cant": "Only fails for addresses at or above 2^31 (base addresses are 64-bit); tests use small ones.", "anchors": ["svd-encoder/src/device.rs: sort_peripherals", "svd-encoder/src/peripheral.rs: rc_sort", "svd-encoder/src/register.rs: sort_fields"]}
{"id": "C30", "title": "Element paths: print, parse, compare", "statement": "The text of a block, register, field or enumeration path is its parts joined with dots; comparing a path with a text is true exactly when the text cut at its dots is the list of parts; printing and parsing a path gives it back (parts without dots). Parsing a field path panics exactly when the text has two parts. The parent and the name of a block path are the path without its last part and that part; the path of a peripheral has no parent, and asking for its name panics.", "quantifier": "all paths and all strings", "why_tests_cant": "All component lists.", "anchors": ["svd-parser/src/expand.rs: BlockPath, RegisterPath, FieldPath, EnumPath", "svd-parser/src/expand.rs:49-56"]}
{"id": "C31", "title": "The derivation index finds every element", "statement": "In the index of a device, whatever is found under a path is an element with that path; every path of a peripheral, cluster, register, field or named enumeration (own name or name of an array instance) leads to an element, and to that element if no other has the path; of several peripherals with one name the last is found.", "quantifier": "all devices", "why_tests_cant": "Trees of any shape.", "anchors": ["svd-parser/src/expand.rs: Index"]}
{"id": "C32", "title": "Expansion leaves nothing to expand", "statement": "When expand succeeds, the result contains no peripheral, register or field array, no cluster, and no derivedFrom on any peripheral, register, field or enumerated values.", "quantifier": "all devices", "why_tests_cant": "Whole trees with arbitrary derivation.", "anchors": ["svd-parser/src/expand.rs: expand"]}
{"id": "C33", "title": "Expansion never hits its unreachable branch", "statement": "expand never reaches the unreachable!() in cluster flattening, whatever the device.", "quantifier": "all devices, both overflow modes", "why_tests_cant": "Reachability over all inputs.", "anchors": ["svd-parser/src/expand.rs: expand_cluster"]}
{"id": "C34", "title": "Expansion of clusters and arrays gives the right names and addresses", "statement": "For a device without derivation, the expanded registers of a peripheral are exactly, in order, one per combination of cluster and register array indexes, named by joining the instance names with underscores and located at the sum of the offsets and index multiples along the path; fields expand likewise.", "quantifier": "all devices without derivedFrom whose addresses fit", "why_tests_cant": "Arbitrary nesting of arrays in arrays.", "anchors": ["svd-parser/src/expand.rs: expand_cluster_array, expand_register_array, expand_field, expand_cluster"]}
{"id": "C35", "title": "Expansion is idempotent", "statement": "Expanding an already expanded device returns it unchanged. A description is returned as it is exactly if there is nothing to expand in it, and these descriptions are exactly those that expansion can give.", "quantifier": "all devices on which expand succeeds", "why_tests_cant": "All devices.", "anchors": ["svd-parser/src/expand.rs: expand"]}
{"id": "C36", "title": "Expansion changes nothing else", "statement": "expand keeps all device attributes other than peripherals; peripherals appear in the input order, each giving one (or dim) outputs whose name, base address and other identity attributes come from it.", "quantifier": "all devices", "why_tests_cant": "Frame condition over all data.", "anchors": ["svd-parser/src/expand.rs: expand"]}
{"id": "C37", "title": "Derivation semantics of expand", "statement": "An element derived through a chain of elements receives each inheritable attribute from the nearest element of the chain that has it, and its content is then expanded; a reference to a missing element or to itself makes expand fail rather than be ignored. The content is read in the path of the element it was written in only if that element is the last of the chain; otherwise relative references in it are looked up in the wrong place (refuted).", "quantifier": "all devices and chains of any length", "why_tests_cant": "Chains of any length.", "anchors": ["svd-parser/src/expand.rs: derive_peripheral, derive_cluster, derive_register, derive_field, derive_enumerated_values"]}
{"id": "C38", "title": "Expansion terminates when following references ends", "statement": "If every way of following derivedFrom references in the device comes to an end (in particular if the elements of each kind can be numbered so that references go down), expand finishes with one definite result or error. Without that condition it need not: a cycle that does not go through the starting element, or a cluster derived from one that contains it, makes expand recurse forever. If the numbers are at most P for peripherals, C for clusters and K for registers, fields and values, a recursion depth above P and of at least K + C + 4 is enough, and any larger depth gives the same result.", "quantifier": "all devices, both overflow modes", "why_tests_cant": "Non-termination cannot be tested, and termination is over all devices and all ways names can resolve.", "anchors": ["svd-parser/src/expand.rs: derive_peripheral, derive_register, derive_cluster, derive_field"]}
{"id": "C39", "title": "expand_properties: nearest level wins", "statement": "After expand_properties each property (size, access, protection, resetValue, resetMask) of a non-derived register under non-derived parents is the first one given by the register, its clusters from inside out, the peripheral, the device.", "quantifier": "all devices", "why_tests_cant": "Arbitrary nesting depth and all presence patterns.", "anchors": ["svd-parser/src/expand.rs: expand_properties"]}
{"id": "C40", "title": "expand_properties: frame and idempotence", "statement": "expand_properties changes only properties of non-derived registers under non-derived parents, never overwrites a given value, and applying it twice equals applying it once.", "quantifier": "all devices", "why_tests_cant": "Frame over whole trees.", "anchors": ["svd-parser/src/expand.rs: expand_properties"]}
{"id": "C41", "title": "Device round trip", "statement": "Encoding a well formed device with the default configuration and parsing the result at a level at which the device is valid returns an equal device. In a checked build the well formed devices are the only ones that come back equal. Hence no two different such descriptions have the same document, however each is written.", "quantifier": "all well formed devices", "why_tests_cant": "Device trees of any size; tests have a few literals.", "anchors": ["svd-encoder/src/device.rs", "svd-parser/src/device.rs"]}
{"id": "C42", "title": "Component round trips", "statement": "Each component (address block, interrupt, cpu, register properties, write constraint, enumerated value(s), field, register, cluster, peripheral, dim element) is returned unchanged by parse after encode, when well formed and valid.", "quantifier": "all well formed components", "why_tests_cant": "All attribute combinations.", "anchors": ["svd-encoder/src/*.rs", "svd-parser/src/*.rs"]}
{"id": "C43", "title": "Encoder formatting options do not change meaning", "statement": "Changing number formats never changes what the encoded document parses to; forcing a bit range notation changes only the notation; sorting only the order.", "quantifier": "all configurations (without name case changes) and devices", "why_tests_cant": "Product of configurations and devices.", "anchors": ["svd-encoder/src/config.rs", "svd-encoder/src/*.rs"]}
{"id": "C44", "title": "A parsed device is a valid device", "statement": "Whatever device the parser returns at a validation level passes whole-tree validation at that level.", "quantifier": "all documents and parser configurations", "why_tests_cant": "All accepted documents.", "anchors": ["svd-parser/src/lib.rs", "svd-rs/src/device.rs: validate_all"]}
{"id": "C45", "title": "Parsing ignores layout", "statement": "Adding or removing white space text, comments and elements the schema of the parent does not know, reordering children of different kinds, reordering attributes, and adding white space around a text (except in bitRange) anywhere in a document never changes the parse result, error included. (A comment placed before a text is not layout: it hides the text.)", "quantifier": "all pairs of documents that differ by any combination of such changes at any depth, all parser configurations", "why_tests_cant": "All permutations and insertions.", "anchors": ["svd-parser/src/elementext.rs", "svd-parser/src/*.rs"]}
{"id": "C46", "title": "ignore_enums only drops enumerations", "statement": "Parsing with ignore_enums gives the same device as parsing without, with enumerated values and write constraints of fields removed, whenever the latter succeeds.", "quantifier": "all documents the full parser accepts", "why_tests_cant": "Relates two runs on every document.", "anchors": ["svd-parser/src/field.rs", "svd-parser/src/lib.rs: Config::ignore_enums"]}
{"id": "C47", "title": "Byte order mark", "statement": "A UTF-8 byte order mark at the start of a text never changes the result of parsing (unless the text goes on with another mark), and texts without it reach the XML reader untouched.", "quantifier": "all texts", "why_tests_cant": "All texts.", "anchors": ["svd-parser/src/lib.rs: trim_utf8_bom, parse_with_config"]}
{"id": "C48", "title": "Parser does not panic", "statement": "The parser panics only for two reasons: a writeConstraint element without any element child, or, in a debug build, a field whose bit range is 0..4294967295; on every other XML tree it returns a value or an error. Both panics do happen.", "quantifier": "all XML trees, all parser configurations, both overflow modes", "why_tests_cant": "Panic freedom over all inputs; false for the code (empty writeConstraint, full-width bit ranges), true elsewhere.", "anchors": ["svd-parser/src/writeconstraint.rs", "svd-parser/src/bitrange.rs", "svd-rs/src/bitrange.rs"]}
{"id": "C49", "title": "Encoder configuration by name", "statement": "Config::update changes exactly the one option named and leaves the others alone; unknown names change nothing; a text that is no value of the option panics. Each setter method likewise sets its option and no other. The default configuration renames nothing, reorders nothing, keeps the notation of bit ranges, and has the listed number formats.", "quantifier": "all configs, names and values", "why_tests_cant": "All option/value combinations.", "anchors": ["svd-encoder/src/config.rs: Config::update, change_case, Sorting, Default for Config, setters"]}
{"id": "C50", "title": "Serde round trip of whole devices", "statement": "A device whose numbers are in the ranges of their types, whose index texts contain neither a comma nor a dash and whose bit ranges have an msb the build can compute is always written through serde, and reading the result gives the device back, except that arrays without an index list come back as single elements and the three attributes of the XML root get their defaults; with index lists and the default attributes it comes back unchanged. An index list comes back exactly if it is not empty and its texts contain neither commas nor dashes. The exceptions are proved to occur. Hence no two different descriptions that come back have the same serde form.", "quantifier": "all devices of any depth, all combinations of build modes for writing and reading", "why_tests_cant": "Unbounded nesting, all subsets of optional entries and all values; the loss of arrays is silent.", "anchors": ["svd-rs/src/device.rs", "svd-rs/src/array.rs: ser_de", "svd-rs/src/bitrange.rs: ser_de", "svd-rs/src/dimelement.rs: ser_de"]}
{"id": "C51", "title": "modify_from is not atomic", "statement": "A successful modify_from leaves a valid element; a failing one may leave the element changed and invalid (refutation of atomicity), though never in an attribute that the builder does not set.", "quantifier": "all elements, builders, levels", "why_tests_cant": "frame and validity over all inputs, plus a specific failing path", "anchors": ["svd-rs/src/register.rs:315-364", "svd-rs/src/cluster.rs:215-247", "svd-rs/src/peripheral.rs:325-379", "svd-rs/src/device.rs:318-374"]}
{"id": "C52", "title": "Structural validation", "statement": "In Strict mode a register, cluster or peripheral is refused exactly when a name (own, alternate, derivedFrom) violates the name grammar or it is not derived and has an empty list of fields/children/registers; below Strict it is never refused; a device is refused exactly when it has no peripherals and the level is not Disabled.", "quantifier": "all levels, all registers, clusters, peripherals and devices", "why_tests_cant": "the refusal condition ranges over all names and shapes; tests sample a few", "anchors": ["svd-rs/src/register.rs:RegisterInfo::validate", "svd-rs/src/cluster.rs:ClusterInfo::validate", "svd-rs/src/peripheral.rs:PeripheralInfo::validate", "svd-rs/src/device.rs:Device::validate"]}
{"id": "C53", "title": "Whole-tree validation is element-wise", "statement": "validate_all accepts a device (or register tree) exactly when every element in it, at any nesting depth, is acceptable on its own at that level.", "quantifier": "all levels and all devices / register trees", "why_tests_cant": "trees are unbounded in depth and width", "anchors": ["svd-rs/src/device.rs:Device::validate_all", "svd-rs/src/peripheral.rs:PeripheralInfo::validate_all", "svd-rs/src/cluster.rs:ClusterInfo::validate_all", "svd-rs/src/register.rs:RegisterInfo::validate_all", "svd-rs/src/field.rs:FieldInfo::validate_all"]}
{"id": "C54", "title": "Validation never panics", "statement": "Validating any device at any level returns Ok or an error; it never panics.", "quantifier": "all levels and devices", "why_tests_cant": "absence of panics over all inputs", "anchors": ["svd-rs/src/device.rs:Device::validate_all"]}
{"id": "C55", "title": "White space around text is exactly what is ignored", "statement": "The text of an element is read with the Unicode white space (White_Space code points, UTF-8 encoded) at both ends removed and nothing else: the result is the unique string with no white space at either end that the original surrounds with white space only.", "quantifier": "all byte strings", "why_tests_cant": "All texts and all 25 white space code points, including multi-byte ones whose bytes occur in other characters.", "anchors": ["svd-parser/src/elementext.rs: get_text (str::trim)"]}
{"id": "C56", "title": "Parsed documents survive rewriting", "statement": "Parsing a document, encoding the device and parsing that again gives the same device, for documents without white-space-only texts and empty <fields> whose bit ranges end below 2^32.", "quantifier": "all documents, debug and release builds", "why_tests_cant": "Whole documents of any shape; tests rewrite a handful of files.", "anchors": ["svd-parser/src/*.rs", "svd-encoder/src/*.rs"]}
{"id": "C57", "title": "Name formats convert names and same-kind references only", "statement": "A document encoded with identifier formats parses to the description, arranged as the configuration asks under its own names, with the names of each kind and what refers to that kind (derivedFrom, alternatePeripheral, alternateCluster, alternateRegister, prependToName, appendToName and headerStructName of a peripheral, headerEnumName of an index) converted by the configured case function, placeholders kept, and nothing else changed; display names, groups, header names of clusters and device texts are not touched. A reference to a sibling by its own name is still followed to the same element, through any chain of siblings, as long as the case function does not merge the names or make dots. A reference that is a path is converted as a whole in the case of the last part, so that it can stop resolving.", "quantifier": "all configurations, case functions and devices", "why_tests_cant": "Product of configurations, case functions and devices.", "anchors": ["svd-encoder/src/config.rs:41-64", "svd-encoder/src/peripheral.rs", "svd-encoder/src/cluster.rs", "svd-encoder/src/register.rs", "svd-encoder/src/field.rs", "svd-encoder/src/enumeratedvalues.rs", "svd-encoder/src/enumeratedvalue.rs", "svd-encoder/src/dimelement.rs", "svd-encoder/src/interrupt.rs"]}
{"id": "C58", "title": "What makes expansion fail", "statement": "Expanding fails only for stated reasons: an index access out of bounds needs an array with fewer index texts than its dimension, which the parser never delivers; a failed unwrap needs a field reference of the form register.field; an error names a reference that is its own source or was not found, and needs a reference in the device. A device without references always expands, except that a debug build can panic on overflow.", "quantifier": "all devices, both build modes", "why_tests_cant": "All devices; absence of a failure is not observable by sampling.", "anchors": ["svd-parser/src/expand.rs: expand, derive_*, expand_*"]}
{"id": "C59", "title": "Boolean texts", "statement": "Exactly 0, 1, true and false are read as booleans, with the obvious meaning; any other text gives the error that quotes it.", "quantifier": "all strings", "why_tests_cant": "All strings.", "anchors": ["svd-parser/src/types.rs: BoolParse"]}
{"id": "C60", "title": "The entry points deliver what the configuration asks for", "statement": "parse_with_config with expand delivers a device without arrays, clusters and derivations; without expansion options it delivers a device valid at the requested level; with expand_properties it delivers the plain result with defaults filled in; without a device element it gives the missing tag error; it panics only in the stated ways; and encode followed by parse gives the device back.", "quantifier": "all texts, XML readers and writers, configurations and devices", "why_tests_cant": "Product of texts, configurations and devices.", "anchors": ["svd-parser/src/lib.rs: parse, parse_with_config", "svd-encoder/src/lib.rs: encode, encode_with_config"]}
{"id": "C61", "title": "Validity and expansion", "statement": "A valid device without references stays valid at level Weak when it is expanded, as long as it keeps a peripheral. With derivation, with property filling, and at level Strict, a valid device can become invalid, and nothing reports it. With derivedFrom, the expansion is valid if the description is, once all that is inherited has been written in place.", "quantifier": "all devices", "why_tests_cant": "All devices.", "anchors": ["svd-parser/src/expand.rs: expand, expand_properties", "svd-rs/src: validate_all"]}
{"id": "C62", "title": "The order of entries in a serialised device is irrelevant", "statement": "Two serialised forms that differ only in the order of the entries of maps, at any depth, are read as the same device, or fail in the same way.", "quantifier": "all forms without duplicate keys, both build modes", "why_tests_cant": "All permutations at all depths.", "anchors": ["svd-rs/src/*: Deserialize"]}
{"id": "C63", "title": "When serialising and deserialising panic", "statement": "Serialising a device never fails with an error; it panics exactly in a debug build if some field is written as bitRange or lsb/msb and its offset+width is 0 or at least 2^32. Deserialising any data at all panics only in a debug build, only by overflow, and only if the data contains a map whose bit range entries have msb below lsb or are 0 to 4294967295.", "quantifier": "all devices, all data", "why_tests_cant": "Absence of panics for all inputs.", "anchors": ["svd-rs/src/bitrange.rs: from_msb_lsb, from_bit_range, msb, ser_de"]}
{"id": "C64", "title": "What a deserialised device is guaranteed to be", "statement": "Whatever is read has all numbers in range and the default root attributes; in a debug build every bitRange or lsb/msb range has width at least 1 and ends at or below bit 2^32-1; and a device that was read, if its arrays have index lists of texts without commas and dashes, can be written and read again with the same result. It is not validated: a device that the builders refuse at every level but Disabled can be read.", "quantifier": "all data", "why_tests_cant": "All inputs.", "anchors": ["svd-rs/src/*: Deserialize"]}
{"id": "C65", "title": "Bit range constructors are exact", "statement": "BitRange::from_bit_range returns a range exactly for texts [msb:lsb] (an optional plus before the numbers, anything after another colon ignored), with offset lsb and width msb-lsb+1 modulo 2^32; it returns None for every other text and panics exactly in a debug build if msb < lsb or the range is 0 to 4294967295. from_msb_lsb behaves the same on numbers. The text bit_range() gives is read back as the same range.", "quantifier": "all texts, all u32 pairs, both build modes", "why_tests_cant": "All texts and all pairs.", "anchors": ["svd-rs/src/bitrange.rs:43-76"]}
{"id": "C66", "title": "Foreign keys are ignored", "statement": "Adding entries with keys that the format does not use to any of the maps of a serialised device, except those that are a variant of an enumeration, does not change what is read or whether and how reading fails.", "quantifier": "all forms, all sets of added entries at any depth", "why_tests_cant": "All places and all values.", "anchors": ["svd-rs/src/*: Deserialize"]}
{"id": "C67", "title": "Assigning through a mutable lookup", "statement": "Assigning through get_mut_peripheral, get_mut_interrupt, get_mut_field, get_mut_value, get_mut_register or get_mut_cluster replaces, in place, exactly the first element of that kind and name and leaves every other element as it was; there is nothing to assign to exactly when the matching get_* finds nothing; an element written under its own name is then the one the getter returns, and every other name still gives what it gave, of either kind. registers_mut and clusters_mut hand out each direct child of that kind exactly once.", "quantifier": "all containers, names and new values", "why_tests_cant": "Containers with repeated names and mixed kinds, all of them.", "anchors": ["svd-rs/src/device.rs:404-406", "svd-rs/src/peripheral.rs:498-520", "svd-rs/src/cluster.rs:337-349", "svd-rs/src/register.rs:419-422", "svd-rs/src/registercluster.rs:78-124"]}
{"id": "C68", "title": "Rewriting every register of a tree", "statement": "A loop over all_registers_mut that replaces each register it is given by any function of it and of a running state terminates and leaves exactly the tree in which every register at every depth is replaced once, in document order, with clusters unchanged but for their children; the registers it hands out are those all_registers gives, in the same order, and all_registers afterwards gives what was written.", "quantifier": "all trees, all replacement functions with state", "why_tests_cant": "All trees at any depth and all functions.", "anchors": ["svd-rs/src/registercluster.rs:126-171", "svd-rs/src/cluster.rs:297-301", "svd-rs/src/peripheral.rs:483-490"]}
{"id": "C69", "title": "Enumerations by usage and the default value", "statement": "get_enumerated_values returns an enumeration exactly if the field has one or two of them and it is the first that is not derived and has the given usage, no usage meaning read-write; get_mut_enumerated_values replaces exactly that one; no enumeration is found under two usages. default_value is the first value marked as default.", "quantifier": "all fields, usages and enumerations", "why_tests_cant": "All lists and combinations.", "anchors": ["svd-rs/src/field.rs:385-404", "svd-rs/src/enumeratedvalues.rs:102-104", "svd-rs/src/enumeratedvalues.rs:169-175"]}
{"id": "C70", "title": "Locating an error changes nothing else", "statement": "Parsing with errors located in the document gives the device, the error or the panic that parsing gives without: the first device element at top level decides, and a document without one gives the error that the device tag is missing. Looking up the node of an error never panics.", "quantifier": "all documents, configurations and build modes", "why_tests_cant": "All documents; every error site and every node an error can be attached to.", "anchors": ["svd-parser/src/lib.rs:119-180", "svd-parser/src/lib.rs:269-287"]}
{"id": "C71", "title": "A reported error is true of the node it is reported at", "statement": "If parsing fails, the node the error is attached to is in the document below the device element, and the error is true of it: a missing tag is one of those the element must have, and the element has no such child or an empty one; an empty tag, a bad number, boolean or enumeration text is the content of that very element; a value out of range, a bad name, a reversed or unreadable bit range, an index count that differs from the dimension, and each error of validation, is what the node says, with the numbers and names given in the error. Errors of a validation level appear only at that level or a stricter one.", "quantifier": "all documents, configurations and build modes, all errors", "why_tests_cant": "Every error site on every document; a test looks at one wrong document at a time and at whether it fails, not whether the blame is right.", "anchors": ["svd-parser/src/elementext.rs", "svd-parser/src/bitrange.rs", "svd-parser/src/device.rs", "svd-parser/src/register.rs", "svd-parser/src/field.rs", "svd-parser/src/writeconstraint.rs", "svd-parser/src/dimelement.rs"]}
{"id": "C72", "title": "The report of an error names the way to it", "statement": "The context of a parse error has first a line for the node of the error, with its tag, its name if it has one, and its position; then, from the inside out, one line for each enclosing device, peripheral, register, field, enumeratedValue or interrupt with its name or 'unknown', and nothing for any other enclosing node. A document without a device has no context.", "quantifier": "all documents, configurations and positions", "why_tests_cant": "All depths and nestings.", "anchors": ["svd-parser/src/lib.rs:119-172"]}
{"id": "C73", "title": "Which document means which description", "statement": "A device element is parsed into a description exactly if the two correspond part by part: each part comes from the first child element, or the attribute, that the format names for it (mandatory or optional as the format says, or with the documented default), its text read as a string, number, boolean, word or list of indexes, repeated elements in document order, arrays exactly when a dim element is there, and every level valid under the chosen level. The same for each element that can be parsed on its own. So a document means at most one description, and what is written from a fitting description means that description, in the element names of the format.", "quantifier": "all documents, descriptions, validation levels and build modes", "why_tests_cant": "An equivalence over all documents; a round trip cannot see names that are wrong in both directions.", "anchors": ["svd-parser/src/device.rs:5-61", "svd-parser/src/peripheral.rs:5-73", "svd-parser/src/register.rs:5-59", "svd-parser/src/cluster.rs:5-41", "svd-parser/src/field.rs:5-58", "svd-parser/src/enumeratedvalues.rs:5-37", "svd-parser/src/enumeratedvalue.rs:5-22", "svd-parser/src/dimelement.rs:5-58", "svd-parser/src/cpu.rs:5-35", "svd-parser/src/registerproperties.rs:5-19", "svd-parser/src/elementext.rs:1-114"]}
{"id": "C74", "title": "Written documents follow the content models of the format", "statement": "Whatever is written is a device element in which every element, at every depth, has the children the format allows there, in the order of the format, each single one at most once (exactly once if mandatory), only the attributes of the format, and elements without children hold one text. This holds of every device, valid or not, under every configuration, and of each part written on its own.", "quantifier": "all devices, configurations, name converters and build modes", "why_tests_cant": "All combinations of optional parts at all depths.", "anchors": ["svd-encoder/src/device.rs:5-134", "svd-encoder/src/peripheral.rs:5-203", "svd-encoder/src/register.rs:5-160", "svd-encoder/src/cluster.rs:5-76", "svd-encoder/src/field.rs:5-72", "svd-encoder/src/cpu.rs:4-56", "svd-encoder/src/dimelement.rs:5-58"]}
{"id": "C75", "title": "Which serde form means which description", "statement": "A serde form is read into a device exactly if the two correspond part by part: each part comes from the one entry with the key the crate documents by its attributes (a second entry with the key is an error), present if required, absent or null if optional, lists empty if absent, enumerations by their words, numbers within the range of their type, a map being an array exactly if its dimensions can be read in full, and the bits taken from bitRange, else bitOffset and bitWidth, else lsb and msb. Enumerations and their values, address blocks, interrupts, processors, write ranges and index enumerations may also be given as the sequence of their values in the order of declaration, which may end before optional ones but have no further items. The same for each part read on its own. So a form means at most one description, and what is written from a device in range means that device, under those keys.", "quantifier": "all forms, devices and build modes", "why_tests_cant": "An equivalence over all forms; a round trip cannot see keys that are wrong in both directions.", "anchors": ["svd-rs/src/device.rs:15-121", "svd-rs/src/peripheral.rs:24-126", "svd-rs/src/register.rs:21-112", "svd-rs/src/cluster.rs:24-74", "svd-rs/src/field.rs:21-85", "svd-rs/src/bitrange.rs:79-146", "svd-rs/src/dimelement.rs:6-69", "svd-rs/src/dimelement.rs:256-287", "svd-rs/src/array.rs:97-149", "svd-rs/src/enumeratedvalues.rs:4-36", "svd-rs/src/writeconstraint.rs:4-29", "svd-rs/src/cpu.rs:3-99"]}
{"id": "C76", "title": "Written serde forms have one layout", "statement": "Whatever is written with serde is a map with the keys of a device in the order of their declaration, and so on for every map inside: required keys exactly once, optional ones at most once, no value null, no list empty where empty lists are left out, each value a text, number, boolean, word, list or map as its key says. This holds of every device, in range or not, and of each part written on its own.", "quantifier": "all devices and build modes", "why_tests_cant": "All combinations of optional parts at all depths.", "anchors": ["svd-rs/src/device.rs:15-121", "svd-rs/src/peripheral.rs:24-126", "svd-rs/src/register.rs:21-112", "svd-rs/src/cluster.rs:24-74", "svd-rs/src/field.rs:21-85", "svd-rs/src/enumeratedvalue.rs:4-31"]}
{"id": "C77", "title": "Expansion does exactly what the description means", "statement": "For a device in which no path means two different elements, resolving references by path, inheriting each attribute from the nearest element that has it, instantiating arrays and hoisting cluster registers have exactly one result if they have any, and expanding the device returns that result; if there is none (a reference to nothing or to itself, a chain without end, index texts missing, an address out of range in a checked build), expansion returns no device. Where a path is shared, several results are right and the later element is taken.", "quantifier": "all devices and build modes; all depths large enough", "why_tests_cant": "Both directions, for every combination of references, arrays and nesting: no legal device is refused and no other result is possible.", "anchors": ["svd-parser/src/expand.rs:222-690"]}
{"id": "C78", "title": "Error messages can always be made and tell the error", "statement": "Making the message of an error given out by parsing, expansion, validation, a builder or an update never panics, in checked and unchecked builds, and is the same text in both. Two parse errors with the same message are the same error with the same names and numbers, except that the message about a badly formed name does not say which tag the name was in; two expansion errors with the same message are the same error. The interval in the message about an enumerated value out of range is 0 to 2^width - 1 of its field. The message of a failed expansion begins with the kind of an element whose reference cannot be followed. Every message quotes what the error is about: the tag in angle brackets, the name or text as it stands, the numbers in decimal notation, or hexadecimal for contents of registers. What a message quotes it quotes as a word: no letter or digit touches it.", "quantifier": "all documents, devices, builders, levels and build modes, all pairs of errors", "why_tests_cant": "One message computes end - 1 when it is printed, so it can panic long after the error was made; whether a text determines the error is about all pairs of errors.", "anchors": ["svd-rs/src/enumeratedvalue.rs: Error::OutOfRange", "svd-rs/src/lib.rs: SvdError", "svd-parser/src/lib.rs: SVDError", "svd-parser/src/expand.rs: anyhow! texts"]}
{"id": "C79", "title": "An expanded device can be saved and loaded again", "statement": "A device read from a document with texts that are not blank, with its register properties filled in, or expanded, or both, is written to a document from which reading with the same level gives back exactly the same device, provided it is still valid at that level, the arrays have at least one instance and the index texts do not begin or end with white space. Reading that file with expansion switched on changes nothing. Without references, and below level Strict, the expanded device is always still valid. Without these conditions the file may be refused, or names and field lists may come back changed.", "quantifier": "all documents, levels, encoder configurations that keep order, notation and names, build modes and fuel", "why_tests_cant": "The result of expansion is made of joined names, summed addresses and inherited values; that every such device can be written and read back is about all combinations of references, arrays and nesting.", "anchors": ["svd-parser/src/lib.rs:119-180", "svd-parser/src/expand.rs:222-690", "svd-encoder/src/lib.rs:48-61"]}
{"id": "C80", "title": "Parsed and expanded devices survive the serde form", "statement": "A device read from a document, or read and then expanded, can be serialised, and deserialising gives back the same device except for the attributes of the root element, which come back as the usual ones, and index texts of unexpanded arrays, which come back filled in. In an unchecked build this needs no condition if the document was read by a checked build; in a checked build it needs field ends within 32 bits. A device read from the serde form and expanded survives exactly.", "quantifier": "all documents, devices, configurations and build modes", "why_tests_cant": "Whether every number, range and index list that parsing or expansion can produce lies within what the serde form accepts is a statement about all documents.", "anchors": ["svd-rs/src/device.rs", "svd-rs/src/bitrange.rs", "svd-rs/src/dimelement.rs", "svd-parser/src/expand.rs:222-690"]}
{"id": "C81", "title": "Errors of expansion are true", "statement": "If expanding a device gives an error, then some element that is expanded (of the device, or inherited by a derived element) has a derivedFrom reference from which following references leads to the reported text that means nothing in the device, or to a reference taken for one to the element itself; a peripheral reported as not found is the name of no peripheral or instance, and for a text with dots nothing of the reported kind has that path; a peripheral reported as self-derived is reached from itself. In a device without ambiguous paths a device with such a reference is never expanded. For registers, a self-derivation can be reported of a register that is derived from nothing.", "quantifier": "all devices, build modes and depths", "why_tests_cant": "Soundness of every error for all devices, including chains through inherited content whose references are read in another context.", "anchors": ["svd-parser/src/expand.rs:385-629", "svd-parser/src/expand.rs:631-690"]}
{"id": "C82", "title": "What makes writing a device panic", "statement": "Encoding a device never gives an error value. It panics exactly if: in a checked build, two or more peripherals, registers/clusters of a peripheral, or fields of a register that are sorted together by descending address include one whose address is 2^31 in its low 32 bits; in a checked build, a field is written by its last bit and offset plus width is zero or not below 2^32; in a checked build, the indexes of an array are numbers including 0 and 4294967295; in any build, the index list of an array is shorter than the array and consists of numbers. A device that was read from a document is always written by an unchecked build, and by a checked build with default options unless it has such a field or index list.", "quantifier": "all devices, configurations, name conversions and build modes", "why_tests_cant": "Absence of further panics is a statement about all devices and configurations; the triggering values are rare corner cases.", "anchors": ["svd-encoder/src/lib.rs: encode, encode_with_config", "svd-encoder/src/device.rs, peripheral.rs, register.rs: sorting", "svd-encoder/src/dimelement.rs", "svd-encoder/src/bitrange.rs", "svd-rs/src/dimelement.rs: indexes_as_range"]}
{"id": "C83", "title": "Building an element call by call", "statement": "An element built by any chain of builder calls has, attribute by attribute, the value of the last call that sets it (an unset, default or tidied value where none did), and build succeeds exactly when everything mandatory was given and the element is valid. Calls of different setters can be exchanged anywhere in the chain, except a register's whole properties with one of them and two calls about the bits of a field, whose outcome is given exactly (width before offset is lost, two offsets make the first the width). Every valid element can be built by some chain. The builder itself holds the value last given, also where the built element could not tell: an empty text or list from none, which modify_from tells apart. A chain that starts from the builder of an element builds what the calls give last and otherwise what the element had.", "quantifier": "all chains of calls of every builder, all levels, all elements", "why_tests_cant": "there are unboundedly many chains, with repetitions and in every order", "anchors": ["svd-rs/src/*.rs: the setters of every builder", "svd-rs/src/registerproperties.rs:98-127"]}
{"id": "C84", "title": "Debug and release builds agree until an arithmetic overflow", "statement": "Parsing a document, reporting where parsing failed, expanding, encoding to XML, reading and writing the serde form, and displaying messages give the same value, the same error or the same panic in debug and in release builds, except that where the debug build panics with arithmetic overflow the release build may do anything. In that case the release build can silently go on with a wrong result: a register of an array wraps around to an address it was not given, and a field over 2^32 bits is read with width zero.", "quantifier": "all documents, devices, configurations and options", "why_tests_cant": "a test suite runs in one build profile on a few documents; the agreement is about every input", "anchors": ["svd-parser/src/lib.rs:115-181", "svd-parser/src/expand.rs:657-688", "svd-encoder/src/lib.rs", "svd-rs/src/bitrange.rs"]}
{"id": "C85", "title": "Resolving properties and expanding together", "statement": "If nothing is derived, then filling in properties and then expanding gives, for every peripheral in document order and as often as its array says, exactly one register per register instance, in document order, each with every property (size, access, protection, reset value, reset mask) taken from the nearest of the register, its clusters from the inside out, the peripheral and the device that gives it. So a property that the device gives is missing nowhere. The order of the two steps matters: expanding first loses the defaults of clusters. With derivedFrom it fails: registers stated in a derived peripheral are left without defaults, and inherited registers have the defaults of the peripheral they come from.", "quantifier": "all devices without derivedFrom on peripherals, clusters and registers, at any depth of clusters and any array sizes", "why_tests_cant": "depth of nesting and array sizes are unbounded and the two passes interact through every level", "anchors": ["svd-parser/src/expand.rs:655-723", "svd-parser/src/lib.rs:170-178"]}
{"id": "C86", "title": "Order of elements and bit range notation do not change what expansion gives", "statement": "Take two devices that differ only in the order of siblings (peripherals, children of peripherals and clusters, fields) and in the notation of bit ranges, where no two siblings of one kind can be called the same. If one expands then the other does, and the results differ only in the order of siblings and in notation. In particular a device that is written with any sorting and bit range options and read back expands to the same result up to order. It fails where siblings share a name, since a reference takes the last.", "quantifier": "all devices, all permutations of siblings at every level, all notations, all chains of references, all depths; all sorting, bit range and number options of the encoder", "why_tests_cant": "references may point anywhere, so each of the unboundedly many orders and chains is a different run of the expander", "anchors": ["svd-parser/src/expand.rs:150-653", "svd-encoder/src/config.rs:1-80"]}
{"id": "C87", "title": "Which error validation reports", "statement": "Validation reports one error, and which one is fixed. For a single element the rules are tried in a fixed order and the error, with its payload, is that of the first broken rule: names before references before contents; for a field the name, each piece of the reference, zero width, enumerated values out of range in document order, incompatible usages, then the write constraint (reversed before out of range, minimum before maximum); for register properties the reset value, the mask, then their conflict. For a whole tree (validate_all of a device, peripheral, register, cluster, field or set of enumerated values) the error is that of the first wrong element in a fixed order: properties first, then parts before the whole they belong to, and in a block all registers before all clusters whatever their order in the file. Naming rules, mask rules, usage rules and rules about empty blocks are only there at the strict level; with validation off there are none.", "quantifier": "all elements and trees, all levels, all errors", "why_tests_cant": "A test has one fault at a time, so the order in which faults are looked for is not seen; any number of faults can be combined at any depth.", "anchors": ["svd-rs/src/field.rs:305-357", "svd-rs/src/register.rs:366-396", "svd-rs/src/cluster.rs:250-275", "svd-rs/src/peripheral.rs:382-418", "svd-rs/src/device.rs:377-396", "svd-rs/src/registerproperties.rs:130-157", "svd-rs/src/enumeratedvalues.rs:134-167", "svd-rs/src/writeconstraint.rs:43-53"]}
{"id": "C88", "title": "Expansion keeps the bits of every register", "statement": "If nothing is derived, every register instance of the expanded device has exactly one field per field instance of its source register, at the same bits and with the same width, access, modified-write effect, write constraint and read action. So the same bits belong to fields, and computing a register's bit mask before and after expansion gives the same value if every field instance begins below bit 64. An instance beginning above bit 63 is left out of the mask of the array but makes the mask of the expanded register panic (or, unchecked, sets low bits); and a field that becomes an array by derivation changes the mask. Instances of a field array are apart exactly if the increment is not less than the width. With derived registers and peripherals, the same holds of the description in which all that is inherited has been written in place.", "quantifier": "all devices without derivedFrom on peripherals, clusters, registers and fields, all nestings and arrays, both build modes, any fuel", "why_tests_cant": "relates two computations (mask of an array, masks of its instances) over all nestings, array sizes and bit positions", "anchors": ["svd-parser/src/expand.rs", "svd-rs/src/field.rs", "svd-rs/src/register.rs"]}
{"id": "C89", "title": "An access allows what its word says; options are what was last set", "statement": "For every access word read from an <access> element (without the white space around it) or from serde data, the access can be read if and only if the word speaks of reading and written if and only if it speaks of writing; every access allows one of the two, and together with `Once` this tells accesses apart. A processor is a Cortex-M exactly if its name begins with CM. An element made with or without dimensions keeps its contents and is an array exactly if it has dimensions. After any sequence of calls on the parser options each option has the value of the last call for it, and is otherwise untouched.", "quantifier": "all texts, elements, data, names, elements and dimensions, and all sequences of option calls", "why_tests_cant": "quantifies over all words, names and sequences of calls", "anchors": ["svd-rs/src/access.rs:30-39", "svd-rs/src/cpu.rs:326-330", "svd-rs/src/array.rs:33-42", "svd-parser/src/lib.rs:37-81"]}
{"id": "C90", "title": "A description survives any chain of saving and loading", "statement": "Saving and loading a description any number of times, each time as XML (any build modes, any options that convert no names and keep the order) or as serde data, in any order, always succeeds. If all arrays list their indexes and the root has the usual attributes, the description at the end equals the one at the start. In general what serde loses (arrays without index lists, attributes of the root) is lost the first time and nothing is lost after; without a serde step nothing is lost. An expanded document keeps everything but the attributes of the root.", "quantifier": "all descriptions in the ranges of their types, all finite sequences of ways, all build modes, formats and levels", "why_tests_cant": "quantifies over all descriptions and all interleavings of the two formats", "anchors": ["svd-encoder/src/device.rs", "svd-parser/src/device.rs", "svd-rs/src/device.rs", "svd-rs/src/array.rs:80-149"]}
{"id": "C91", "title": "Filling in properties and expanding can be swapped where clusters say nothing new", "statement": "If no peripheral, cluster or register is derived and no cluster gives a property other than what its peripheral and the device give, then filling in the register properties and then expanding gives the same device as expanding and then filling in, and it fails with the same error or panic if expanding does. With derivedFrom, or with clusters that have properties of their own, the two orders differ. Once all that is inherited has been written in place, the two orders agree again.", "quantifier": "all descriptions without derived peripherals, clusters and registers, with arrays, nested clusters, and derived fields and enumerations; both build modes; every depth", "why_tests_cant": "equates two programs on all descriptions, including the ones on which they fail", "anchors": ["svd-parser/src/expand.rs:657-723", "svd-parser/src/expand.rs:344-383", "svd-parser/src/expand.rs:503-531"]}
{"id": "C92", "title": "The expansion of a peripheral depends on nothing but what it refers to", "statement": "Two descriptions in which no peripheral and no instance of a peripheral has a name in common can be expanded together or apart: if each expands, so does any interleaving of their peripherals, and the result is an interleaving of the two results. Adding peripherals under new names, whatever they refer to, changes nothing about the expansion of the others. With a name in common this is false.", "quantifier": "all pairs of descriptions, all interleavings of their peripherals, both build modes, every depth", "why_tests_cant": "a statement about all descriptions that could be added to a given one", "anchors": ["svd-parser/src/expand.rs:253-341", "svd-parser/src/expand.rs:631-688"]}
{"id": "C93", "title": "Registers can be found by name after expansion", "statement": "In a description without derivedFrom, for every instance of a peripheral and every register below any instances of nested clusters, looking up the name of the instance in the expanded device and then the names on the way, joined with an underscore, finds a register with the properties that it was written with, at the sum of the offsets, provided the names of all instances differ and the joined names of the peripheral differ. Whatever is found stands for a register with that joined name. Joined names can clash even if names differ on every level. With derivedFrom, the same is found as in the description in which all that is inherited has been written in place.", "quantifier": "all descriptions without derivedFrom, all instances and nestings, both build modes", "why_tests_cant": "relates lookup, expansion and naming for every nesting and every array", "anchors": ["svd-parser/src/expand.rs:344-383", "svd-parser/src/expand.rs:490-501", "svd-rs/src/peripheral.rs:460-507", "svd-rs/src/device.rs:399-401"]}
{"id": "C94", "title": "The level of validation decides what is accepted, never what is read", "statement": "Parsing a document at a level of validation gives a device exactly if parsing without validation gives that device, validating its whole tree at the level succeeds, the values of every dimArrayIndex are valid at the level, and, at level Strict, the document has a version, a description, address unit bits and a width. So a text that is accepted at one level is accepted at every weaker one with the same result, whatever the other options. Validation of the whole tree alone is not enough, as it does not look at the values of a dimArrayIndex.", "quantifier": "all documents, all levels, all other options, both build modes", "why_tests_cant": "quantifies over all documents and compares several runs", "anchors": ["svd-parser/src/device.rs", "svd-parser/src/lib.rs:119-180", "svd-rs/src/lib.rs", "svd-rs/src/dimelement.rs"]}
{"id": "C95", "title": "Leaving out enumerations leaves the rest of an expansion as it is", "statement": "Expanding a description from which the enumerations and write constraints of all fields were left out gives exactly the expansion of the full description with these left out. If the full description fails to expand, the other one fails in the same way, unless the error blames enumerated values or following references does not end. So whatever the other options, a text that is read is also read with ignore_enums, with the same result but for these parts. The exception is needed: a description with a dangling reference between enumerated values expands only without them.", "quantifier": "all descriptions, all texts, all options, both build modes", "why_tests_cant": "compares two runs on every description, with any chains of derivedFrom between fields, registers, clusters and peripherals", "anchors": ["svd-parser/src/expand.rs:244-690", "svd-parser/src/field.rs", "svd-parser/src/lib.rs:119-180"]}
{"id": "C96", "title": "Registers with room of their own keep it when expanded", "statement": "Take any measure of how many addresses a register takes, by its properties. If, in a description without derivedFrom, siblings take disjoint stretches of addresses on every level and the step of every array is not less than what its element takes, then, with checked arithmetic, no two registers of any expanded peripheral overlap; and if the peripherals have disjoint stretches too, no two registers of the expanded device do. Conversely, a register array whose step is less than its register takes makes every expanded instance of the peripheral overlap. Without checked arithmetic, offsets that wrap around can make registers collide that have room of their own. With derivedFrom, the same holds if the description has the room once all that is inherited is written in place.", "quantifier": "all descriptions without derivedFrom, and all others by way of the description with what is inherited written in place; all measures, any nesting and dimensions", "why_tests_cant": "All trees, all dimensions and all offsets.", "anchors": ["svd-parser/src/expand.rs:343-383", "svd-parser/src/expand.rs:490-531", "svd-parser/src/expand.rs:657-690", "svd-rs/src/register.rs", "svd-rs/src/cluster.rs"]}
{"id": "C97", "title": "Peripherals can be given a prefix before an expansion or after it", "statement": "Let a prefix without dots, percent signs and opening brackets be put before the name of every peripheral of a description (listed instance names included), and before every reference that begins with the name of a peripheral. Expanding the renamed description gives the expansion of the original one, renamed; if the original fails to expand the renamed one fails in the same way, about an element of the same kind, and conversely. Filling in properties commutes with renaming as well. So any two descriptions that expand can be put together: there is always a prefix that no name of the second begins with, and with it before the names of the first the two together expand to the two expansions. A prefix with a dot in it breaks references.", "quantifier": "all descriptions, all prefixes without dots and placeholders, all depths of recursion, both arithmetic modes", "why_tests_cant": "All descriptions, references of every kind and length, and all prefixes.", "anchors": ["svd-parser/src/expand.rs:14-171", "svd-parser/src/expand.rs:253-341", "svd-parser/src/expand.rs:385-488", "svd-parser/src/expand.rs:565-690", "svd-rs/src/array.rs:63-76"]}
{"id": "C98", "title": "Explanatory texts decide nothing", "statement": "Descriptions, display names, versions, group names and the license text have no influence on anything else: two descriptions that differ in such texts alone expand to descriptions that differ in such texts alone, or fail with the same error, and every level of validation gives the same result for both. Leaving all texts out, or rewriting each of them by a function that treats filled-in placeholders as it treats the template, before an expansion is the same as doing it afterwards; filling in properties commutes with any rewriting. A rewriting that adds placeholders is not the same before and after.", "quantifier": "all descriptions, all rewritings of texts, all levels and depths, both arithmetic modes", "why_tests_cant": "Non-interference: all descriptions and all pairs of texts.", "anchors": ["svd-parser/src/expand.rs:343-690", "svd-rs/src/derive_from.rs", "svd-rs/src/array.rs:63-95", "svd-rs/src/peripheral.rs:382-418", "svd-rs/src/register.rs:366-396"]}
{"id": "C99", "title": "Addresses, bit positions and array steps decide nothing but addresses and bit positions", "statement": "Two descriptions that differ only in base addresses, address offsets, bit offsets and dimIncrements expand to descriptions with the same peripherals, registers and fields, by name, order and everything else but base addresses, address offsets and bit offsets; or they fail with the same error. The only exception is that with checked arithmetic one of them may stop at an overflow; where arithmetic wraps around there is no exception. Every level of validation gives the same result for both, and filling in properties gives descriptions that again differ in these numbers only.", "quantifier": "all pairs of descriptions, all depths and levels, both arithmetic modes", "why_tests_cant": "Non-interference: all descriptions and all pairs of placements.", "anchors": ["svd-parser/src/expand.rs:344-383", "svd-parser/src/expand.rs:490-563", "svd-parser/src/expand.rs:657-723", "svd-rs/src/array.rs:63-95", "svd-rs/src/field.rs:86-107", "svd-rs/src/register.rs:113-141", "svd-rs/src/peripheral.rs:127-155"]}
{"id": "C100", "title": "How much an expansion gives", "statement": "Expanding a description without derivedFrom gives, for each peripheral, as many peripherals as its dimension says (one if it is no array), each with as many registers as the sum over its children of the products of the dimensions on the way down, and as many fields likewise; the totals for the device follow. So the size of an expansion is known before it is made; it is not bounded by the size of the description: for every n there is a description of n + 2 elements that expands to 2^n registers. With derivedFrom the formula does not hold, as elements can take the dimension of another. With derivedFrom, the numbers are those of the description in which all that is inherited has been written in place.", "quantifier": "all descriptions without derivedFrom, any nesting and dimensions, all depths, both arithmetic modes", "why_tests_cant": "All trees and all dimensions; exponential growth for every n.", "anchors": ["svd-parser/src/expand.rs:344-383", "svd-parser/src/expand.rs:490-563", "svd-parser/src/expand.rs:657-688", "svd-rs/src/array.rs:63-95"]}
{"id": "C101", "title": "What has no content of its own has that of what it is derived from", "statement": "When a peripheral without registers of its own is derived, directly or through others without registers, from one that has the last word, then after expansion all instances of both have the very same list of registers (offsets, names, fields and all), and there is such a list exactly if the origin has one. In the same way a cluster without children has the registers of the cluster it comes from, each seen from its own place; a register without fields has the same fields, and a field without enumerated values the same values, as the one it comes from.", "quantifier": "all unambiguous descriptions, chains of derivedFrom of any length, arrays on either side, all depths, both arithmetic modes", "why_tests_cant": "All chains and all contents; equality of whole expanded trees.", "anchors": ["svd-parser/src/expand.rs:385-490", "svd-parser/src/expand.rs:564-656", "svd-parser/src/expand.rs:657-688", "svd-rs/src/derive_from.rs:9-122"]}
{"id": "C102", "title": "An array is short for its elements written one after another", "statement": "Take a description without derivedFrom and write out any of its arrays of peripherals, clusters, registers or fields, at any depth: instead of the array, its instances one after another, each with its own name, description and address or bit offset, and with the content of the array, in which arrays may be written out as well. If the description expands, the one written out expands to the very same device. Conversely, if the one written out expands and no array of peripherals, clusters or registers in the description is empty, so does the description. If the description expands, all its arrays can be written out. The content of an empty array can keep a description from being expanded that expands without it. With derivedFrom writing out fails: a reference to the array by its written name finds nothing any more.", "quantifier": "all descriptions without derivedFrom, any choice of arrays at any depth, any dimensions, all depths, both arithmetic modes", "why_tests_cant": "Every choice of arrays in every tree; equality of whole expanded devices.", "anchors": ["svd-parser/src/expand.rs:344-383", "svd-parser/src/expand.rs:490-563", "svd-parser/src/expand.rs:657-688", "svd-rs/src/array.rs:63-95", "svd-rs/src/field.rs:94-115", "svd-rs/src/register.rs:123-141", "svd-rs/src/cluster.rs:85-99", "svd-rs/src/peripheral.rs:137-155"]}
{"id": "C103", "title": "Expansion in two steps: what is derived first, arrays and clusters then", "statement": "If a description expands, then all that is inherited in it can be written in place - every derivedFrom replaced by what it stands for, with the content of what is taken over read where it was written, arrays remaining arrays and clusters clusters - and the result has no derivedFrom and expands to the very same device. If every reference is to one element, there is exactly one way to do so, and the completed description expands to a device if and only if the original does. So what is known of descriptions without derivedFrom holds of all: where all registers and fields lie, and that everything can be written with neither derivation nor arrays. With two peripherals of one name, only one of several completions expands to what the description does. Once is enough: the result derives nothing and, written out again, stays as it is.", "quantifier": "all descriptions that expand (any derivation chains at any level, any arrays), all depths, both arithmetic modes", "why_tests_cant": "Relates every description to another whole description, over all chains of references and all nestings.", "anchors": ["svd-parser/src/expand.rs:254-383", "svd-parser/src/expand.rs:384-563", "svd-parser/src/expand.rs:564-688"]}
{"id": "C104", "title": "A cluster is short for what it contains", "statement": "Take a description without derivedFrom and dissolve any of its clusters that are no arrays, at any depth: instead of the cluster, its registers and clusters (arrays among them), each with the cluster's name and an underscore before its own name and the cluster's address added to its own. If all addresses stay below 2^32 and, where there are arrays in the cluster, its name has no percent sign and they have no dimArrayIndex, then the description expands to a device if and only if the one with dissolved clusters does, and to the very same. With derivedFrom the same holds once what is inherited is written in place. Without the conditions on names it fails: a placeholder in the cluster's name is filled with the index of the register, and a name from dimArrayIndex stands without the prefix.", "quantifier": "all descriptions without derivedFrom, any choice of clusters at any depth, all depths, both arithmetic modes", "why_tests_cant": "Every choice of clusters in every tree; equality of whole expanded devices in both directions.", "anchors": ["svd-parser/src/expand.rs:344-383", "svd-parser/src/expand.rs:490-501", "svd-rs/src/array.rs:63-95", "svd-rs/src/cluster.rs:85-99", "svd-rs/src/register.rs:123-141"]}
{"id": "C105", "title": "Expansion is three steps: inherit, repeat, dissolve", "statement": "Whatever expands without overflow, its expansion is had in three separate steps: first everything inherited is written in place, then every array is written out as its instances, then every cluster is dissolved into its registers, prefixed and shifted; what is left is the expanded device. Conversely, if every reference is to one element and no array of peripherals, clusters or registers is empty, every device with nothing left to expand that is had by these steps, in any choice they leave, is what the description expands to. So the order of the steps inside the implementation, which interleaves them level by level, cannot be observed.", "quantifier": "all descriptions that expand (any references, arrays, clusters, nesting), all depths", "why_tests_cant": "An equivalence between the interleaved algorithm and the composition of three relations, over all descriptions.", "anchors": ["svd-parser/src/expand.rs:254-383", "svd-parser/src/expand.rs:384-563", "svd-parser/src/expand.rs:564-688"]}
{"id": "C106", "title": "References are unambiguous exactly if siblings have different names", "statement": "No path of a description means two different elements, and no name two sets of values of one register, exactly if peripherals that share a name are the same, registers of one block that share a name are the same, so are clusters of one block and fields of one register, and no two named sets of enumerated values of one register share a name; an array has its own name and the names of its instances. So looking at siblings level by level is enough to know that expansion gives the one description that is meant, at any depth that suffices, and that it can be done in two steps.", "quantifier": "all descriptions, any nesting, arrays with any indexes and names", "why_tests_cant": "An equivalence between a local condition and a global one over all paths of all descriptions.", "anchors": ["svd-parser/src/expand.rs:244-341", "svd-parser/src/expand.rs:385-488", "svd-parser/src/expand.rs:565-653"]}
{"id": "C107", "title": "Without references expansion goes exactly as deep as the description is nested", "statement": "If nothing in a description is derived, expansion recurses as deep as registers and clusters are nested: that depth suffices for every description, a greater one changes nothing, and with a smaller one no device is ever returned. At that depth the result is a device, or an overflow in a checked build, if arrays have enough index texts. With derivation the depth is at least that of the description in which everything inherited is written in place. Where peripherals only are derived, the nesting or the length of the longest chain of peripherals, whichever is more, suffices.", "quantifier": "all descriptions without derivation, any nesting; for the lower bound all unambiguous descriptions", "why_tests_cant": "How much stack is enough is a claim about all descriptions of any nesting, and that less is never enough is one about all runs.", "anchors": ["svd-parser/src/expand.rs:344-383", "svd-parser/src/expand.rs:657-690", "svd-parser/src/expand.rs:631-655"]}
