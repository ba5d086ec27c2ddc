{
 "claims": [
  {
   "property": "C01",
   "status": "proved",
   "theorems": [
    "C01_fifo"
   ],
   "note": "every interleaving of packs and unpacks; total below 2^64 and pos+request below 2^64"
  },
  {
   "property": "C02",
   "status": "partial",
   "theorems": [
    "C02_read_past_end",
    "C02_huge_length_refuted",
    "C02_resize_zero_refuted",
    "C02_more"
   ],
   "note": "holds under pos+s < 2^64; refuted for huge lengths (wrap-around) and after resize(0)"
  },
  {
   "property": "C03",
   "status": "partial",
   "theorems": [
    "C03_queue_refinement",
    "C03_queue_refinement_abs",
    "C03_wild_seeko_refuted",
    "C03_wild_seeki_refuted",
    "C03_append_nothing_refuted"
   ],
   "note": "queue refinement for every history of guarded calls; unguarded seeks refuted"
  },
  {
   "property": "C04",
   "status": "partial",
   "theorems": [
    "C04_roundtrip",
    "C04_destination_equal",
    "C04_wide_enum_refuted"
   ],
   "note": "all types of the universe (fundamental, enum, string, arrays, containers, pair, tuple, class, smart pointers); enum values outside int refuted"
  },
  {
   "property": "C05",
   "status": "proved",
   "theorems": [
    "C05_concatenation"
   ],
   "note": "any list of records of any types"
  },
  {
   "property": "C06",
   "status": "proved",
   "theorems": [
    "C06_truncated"
   ],
   "note": "every strict prefix of every record"
  },
  {
   "property": "C07",
   "status": "proved",
   "theorems": [
    "C07_deepEq",
    "C07_deepEq_general"
   ],
   "note": "exact on fully serialised types; on others equal iff serialised parts are"
  },
  {
   "property": "C08",
   "status": "partial",
   "theorems": [
    "C08_cmp_order",
    "C08_order_is_strict_total",
    "C08_operators_partial",
    "C08_trichotomy_refuted",
    "C08_lexicographic_refuted"
   ],
   "note": "cmp sign is a strict total order, ==/!= decide equality; < and > only if memcmp returns -1/0/1; documentation's lexicographic order refuted"
  },
  {
   "property": "C09",
   "status": "partial",
   "theorems": [
    "C09_hostile_bytes_partial",
    "C09_accepted_is_wellformed_partial",
    "C09_string_length_refuted",
    "C09_bool_refuted",
    "C09_iterator_refuted"
   ],
   "note": "proved without smart pointers and without 8 consecutive 0xFF bytes; both restrictions shown necessary by refutations"
  },
  {
   "property": "C10",
   "status": "partial",
   "theorems": [
    "C10_array_short_count_partial",
    "C10_array_long_count_refuted"
   ],
   "note": "stored count <= N proved; larger count refuted"
  },
  {
   "property": "C11",
   "status": "proved",
   "theorems": [
    "C11_skipped_no_bytes",
    "C11_skipped_unchanged",
    "C11_raw_pointer_throws",
    "C11_raw_pointer_member"
   ],
   "note": "skipped members contribute nothing and are never written, for any stream; raw pointers always throw"
  },
  {
   "property": "C12",
   "status": "partial",
   "theorems": [
    "C12_tree_partial",
    "C12_destination_kept_refuted",
    "C12_members_indeterminate_refuted",
    "C12_bytes"
   ],
   "note": "Round trip for every finite tree when destination and fresh members are null; refuted otherwise: a null source pointer leaves the destination unchanged (pack_graph.h 44-56 has no else)."
  },
  {
   "property": "C13",
   "status": "partial",
   "theorems": [
    "C13_graph_partial",
    "C13_mixed_types_refuted"
   ],
   "note": "Isomorphism proved for all graphs with one pointer type; refuted when two pointer types are mixed (per-type statics lose sharing)."
  },
  {
   "property": "C14",
   "status": "partial",
   "theorems": [
    "C14_graph_partial",
    "C14_recur_max_one_refuted"
   ],
   "note": "Termination and isomorphism for every recursion limit except 1; refuted for 1 (packing never terminates)."
  },
  {
   "property": "C15",
   "status": "partial",
   "theorems": [
    "C15_no_early_free",
    "C15_exact_partial",
    "C15_assign_leaks_refuted",
    "C15_self_assign_leaks_refuted"
   ],
   "note": "No use after free or double free for every history; freed exactly with the last handle if assignment targets are empty; refuted otherwise: operator= leaks (pack_base.h 130)."
  },
  {
   "property": "C16",
   "status": "partial",
   "theorems": [
    "C16_ref_partial",
    "C16_self_value_refuted"
   ],
   "note": "Refinement of a garbage collected store for every history without v = *v; that one statement on a sole owner reads a freed object (ref.h 48)."
  },
  {
   "property": "C17",
   "status": "partial",
   "theorems": [
    "C17_memory_partial",
    "C17_bytes_partial",
    "C17_fresh_refuted",
    "C17_file",
    "C17_large_fails",
    "C17_large_refuted",
    "C17_big_raw_refuted",
    "C17_interleaved_refuted",
    "C17_reread",
    "C17_reseto_end",
    "C17_reseto_refuted",
    "C17_reseti",
    "C17_reseti_size",
    "C17_reseti_refuted",
    "C17_seeki",
    "C17_seeki_far",
    "C17_seeki_refuted",
    "C17_seeko",
    "C17_seeko_outside",
    "C17_seeki_bounds",
    "C17_read_range"
   ],
   "note": "Round trip on files at any size; in memory up to 1024 bytes; beyond that reading always fails (xdr_pack.cc 196), raw blocks above 1024 bytes cannot be written, and growing rewinds the reader. Rewinding and seeking proved within the first 1024 bytes and within the last chunk. Refuted: a fresh buffer claims 1024 bytes; reseto leaves pos(), reseti of a single chunk leaves size(); seeki across chunks beyond 1024 bytes ends at the wrong place (xdr_pack.cc 236)."
  },
  {
   "property": "C18",
   "status": "partial",
   "theorems": [
    "C18_encoding_partial",
    "C18_raw",
    "C18_long_refuted"
   ],
   "note": "RFC 4506 encoding for all values that fit the XDR type; refuted for 64 bit longs outside 32 bits. The XDR library filters are modelled from their specification."
  },
  {
   "property": "C19",
   "status": "partial",
   "theorems": [
    "C19_swap_partial",
    "C19_swap_refuted",
    "C19_move_refuted",
    "C19_moved_from_refuted",
    "C19_xdr_fields_partial",
    "C19_xdr_broken",
    "C19_xdr_refuted",
    "C19_xdr_move",
    "C19_xdr_twice_refuted"
   ],
   "note": "contents, position and ptr_flag exchanged; recur_max is not. xdr_pack: the fields are exchanged but the streams are not (pack_base.h 356): after a swap or a move neither buffer works (C19_xdr_broken, C19_xdr_move)."
  },
  {
   "property": "C20",
   "status": "proved",
   "theorems": [
    "C20_vector",
    "C20_sequence",
    "C20_associative",
    "C20_any_length_safe",
    "C20_nested_not_restored"
   ],
   "note": "round trip of vectors, sequences and associative containers of PODs; memory safety for any bytes; nested growing containers shown not to round trip (outside the claim)"
  },
  {
   "property": "C21",
   "status": "partial",
   "theorems": [
    "C21_roundtrip_partial",
    "C21_tree_partial",
    "C21_pair_member_refuted",
    "C21_pair_member_lost",
    "C21_enum_unlisted_refuted",
    "C21_int_conversion",
    "C21_char_first",
    "C21_kind_mismatch"
   ],
   "note": "All types of the grammar wf round trip through the JSON tree for every value, and the tree is the document enc. Missing because false: pair typed members and nested pairs are dropped (C21_pair_member_refuted, C21_pair_member_lost), enum values without an enumerator come back as 0. JSON text reader/writer is an empty submodule, so not modelled."
  },
  {
   "property": "C22",
   "status": "partial",
   "theorems": [
    "C22_absent_kept_partial",
    "C22_absent_reported_partial",
    "C22_members_independent",
    "C22_enum_reset_refuted",
    "C22_elements_silent_refuted",
    "C22_mismatch_throws_refuted",
    "C22_pack_flags_lost_refuted",
    "C22_fixed_elements",
    "C22_absent_error",
    "C22_new_elements",
    "C22_new_target",
    "C22_new_object",
    "C22_new_entries",
    "C22_absent_reset",
    "C22_absent_tuple"
   ],
   "note": "Absent parts keep their value when throw_on_error is false, and are reported when it is true, for all types except enums, smart pointers, tuples; C22_absent_reset says what becomes of these; members are independent; what is new is fresh (C22_new_elements and following). Refuted: absent enum is reset to T(0); flags do not reach container elements; a kind mismatch throws regardless of the flags; packing into a fresh json_pack_t clears the flags."
  },
  {
   "property": "C23",
   "status": "partial",
   "theorems": [
    "C23_lookup",
    "C23_lookup_any",
    "C23_store_local",
    "C23_store_leaf",
    "C23_store_no_parent",
    "C23_store_nodot_refuted"
   ],
   "note": "Lookup follows the dot separated components; a store is visible at its own path and leaves all incomparable paths unchanged; no parent means no store. Refuted for a path without leading dot: it can be looked up but storing does nothing."
  },
  {
   "property": "C24",
   "status": "partial",
   "theorems": [
    "C24_long_enough_partial",
    "C24_short_refuted",
    "C24_short_ub"
   ],
   "note": "No out-of-bounds read when the JSON array is long enough in every dimension; refuted for shorter arrays (C24_short_ub for every length)."
  },
  {
   "property": "C25",
   "status": "partial",
   "theorems": [
    "C25_pack",
    "C25_first_only_partial",
    "C25_second_lost_refuted",
    "C25_member_refuted",
    "C25_short_refuted"
   ],
   "note": "A tuple is packed as the array of its components, but unpacking restores exactly the first one (tupleTail copies). Refuted in general; tuple members clobber the enclosing object; short array is read out of bounds."
  },
  {
   "property": "C26",
   "status": "partial",
   "theorems": [
    "C26_poly_elements_partial",
    "C26_plain_member_partial",
    "C26_poly_member_lost",
    "C26_poly_member_refuted",
    "C26_null_refuted",
    "C26_unknown_type"
   ],
   "note": "Container elements of polymorphic pointer type and non-null plain pointers round trip. Refuted: polymorphic pointer members always come back null, null plain pointer to a class becomes a default object."
  },
  {
   "property": "C27",
   "status": "partial",
   "theorems": [
    "C27_text",
    "C27_roundtrip_partial",
    "C27_high_bytes",
    "C27_utf8_refuted",
    "C27_markup_refuted",
    "C27_empty_refuted",
    "C27_cdata_refuted",
    "C27_cdata_pretty_refuted",
    "C27_hex_reference",
    "C27_empty_reference"
   ],
   "note": "Every text is characterised (C27_text): bytes 157-255 come back as NUL; proved exact for text without those bytes and without '='-separated pieces '<' or '</'. Refuted in general: UTF-8 text, \"<\", \"</\", the empty string, CDATA ending in ']', CDATA with prettyPrint."
  },
  {
   "property": "C28",
   "status": "partial",
   "theorems": [
    "C28_wellformed_partial",
    "C28_tree",
    "C28_byte_refuted",
    "C28_array_name_refuted",
    "C28_map_key_refuted"
   ],
   "note": "Well-formedness by an independent stack scanner, for every value of any type without CDATA, raw bytes, tuples and StringKeyMaps, given that floats print without markup. Refuted for unsigned char, C arrays of templates and StringKeyMap keys."
  },
  {
   "property": "C29",
   "status": "partial",
   "theorems": [
    "C29_structure",
    "C29_values_partial",
    "C29_tuple_refuted",
    "C29_null_refuted",
    "C29_ptr_leaf_refuted",
    "C29_char_refuted",
    "C29_endtag_refuted",
    "C29_comment_refuted",
    "C29_int_saturates",
    "C29_bool_words"
   ],
   "note": "Structure: proved for every document tree. Typed values: proved for the types of Xml_Spec.xwf; refuted for heterogeneous tuples, null pointers and pointers to leaves in containers, the character ' '. The parser also accepts some mismatched end tags."
  },
  {
   "property": "C30",
   "status": "partial",
   "theorems": [
    "C30_absent",
    "C30_missing_throws",
    "C30_enum_reset",
    "C30_enum_refuted",
    "C30_empty_kept",
    "C30_empty_refuted",
    "C30_empty_attribute_refuted",
    "C30_absent_pointer",
    "C30_absent_pointer_refuted",
    "C30_absent_reset"
   ],
   "note": "C30_absent: fixed-shape types without enums keep their value; C30_absent_reset gives the value after for every type whose element is absent: enums are reset to 0, containers emptied, pointers null (so keeping is refuted there); empty elements keep the old string (refuted)."
  },
  {
   "property": "C31",
   "status": "proved",
   "theorems": [
    "C31_noughts",
    "C31_idempotent"
   ],
   "note": ""
  },
  {
   "property": "C32",
   "status": "proved",
   "theorems": [
    "C32_token",
    "C32_parse"
   ],
   "note": ""
  },
  {
   "property": "C33",
   "status": "proved",
   "theorems": [
    "C33_value_symbol_value",
    "C33_symbol_value_symbol",
    "C33_unknown",
    "C33_iteration"
   ],
   "note": "EnumKeys tables for enums with int values; aliases (several names for one value) covered. std::map trusted."
  },
  {
   "property": "C34",
   "status": "partial",
   "theorems": [
    "C34_split",
    "C34_unique",
    "C34_nodot_tail",
    "C34_nodot_head_refuted",
    "C34_basename",
    "C34_basename_chars"
   ],
   "note": "Split laws and uniqueness proved. Refuted part: for a string without a dot head returns the whole string, not the parent."
  },
  {
   "property": "C35",
   "status": "partial",
   "theorems": [
    "C35_construct",
    "C35_construct_refuted",
    "C35_bijection_partial",
    "C35_in_bounds",
    "C35_collision",
    "C35_bijection_refuted",
    "C35_iteration",
    "C35_empty_inner",
    "C35_indices"
   ],
   "note": "Bijection proved for rank 1 and 2; refuted from rank 3 (sub-arrays get stride 1; collision proved for all such dimensions); offsets stay in bounds for every rank; iteration visits a[0..size-1]."
  },
  {
   "property": "C36",
   "status": "partial",
   "theorems": [
    "C36_longest_prefix",
    "C36_empty_name",
    "C36_not_found",
    "C36_terminates",
    "C36_enum_list",
    "C36_enum_list_refuted"
   ],
   "note": "process of RESTProcess_t as a loop over prefixes; the default branch of the switch (count>1) is dead code for std::map. C36_enum_list_refuted: a name of exactly '@enum' makes @enum.@list throw std::out_of_range."
  },
  {
   "property": "C37",
   "status": "proved",
   "theorems": [
    "C37_best",
    "C37_no_match",
    "C37_ambiguous",
    "C37_order_independent",
    "C37_score",
    "C37_exact",
    "C37_mismatch",
    "C37_matches_partially",
    "C37_int_or_vector_ambiguous",
    "C37_argument"
   ],
   "note": "Scores are 32 bit; C37_score shows they equal the intended cost when 1000000*params+10*args < 2^32."
  },
  {
   "property": "C38",
   "status": "partial",
   "theorems": [
    "C38_last_added",
    "C38_unique",
    "C38_other_names",
    "C38_emplace_keeps",
    "C38_emplace_refuted"
   ],
   "note": "C38_emplace_refuted: fundamental and string members go through emplace, where the first registration wins."
  },
  {
   "property": "C39",
   "status": "partial",
   "theorems": [
    "C39_elem",
    "C39_out_of_range",
    "C39_elem_safe",
    "C39_insert",
    "C39_insert_error",
    "C39_erase",
    "C39_size",
    "C39_history",
    "C39_erase_refuted",
    "C39_nothrow_refuted",
    "C39_index_syntax_refuted",
    "C39_assign",
    "C39_read",
    "C39_erase_rejects",
    "C39_erase_index"
   ],
   "note": "Element operations are parameters. Deviations: @erase ignores an index out of range and without argument removes element 0 (C39_erase_refuted); @elemNoThrow throws for an index beyond int (C39_nothrow_refuted); trailing junk after the digits is ignored (C39_index_syntax_refuted)."
  },
  {
   "property": "C40",
   "status": "partial",
   "theorems": [
    "C40_readonly",
    "C40_get",
    "C40_set",
    "C40_set_frame",
    "C40_set_container",
    "C40_insert",
    "C40_erase",
    "C40_below_element",
    "C40_json_key",
    "C40_empty_key_ub",
    "C40_member_assignment_refuted",
    "C40_getElem_refuted"
   ],
   "note": "C40_member_assignment_refuted: ...@elem.key.member assigns to a copy (auto eoi=elem_of(i)); C40_getElem_refuted: getElem inserts a missing key; C40_empty_key_ub: '.@elem.' dereferences the end iterator."
  },
  {
   "property": "C41",
   "status": "partial",
   "theorems": [
    "C41_positional",
    "C41_bad_argument",
    "C41_surplus",
    "C41_scalar_argument",
    "C41_missing_default",
    "C41_overload_too_few",
    "C41_missing_refuted",
    "C41_remainder_refuted"
   ],
   "note": "C41_missing_refuted: a function that is not overloaded is called with default values for missing arguments; C41_remainder_refuted: with a longer query all arguments, not only the surplus, are applied to the member of the result."
  },
  {
   "property": "C42",
   "status": "proved",
   "theorems": [
    "C42_apply",
    "C42_packfunctor",
    "C42_packfunctor_plain"
   ],
   "note": "apply, callOnBuffer and PackFunctor over pack_t; overload deduction by the C++ compiler is not modelled."
  },
  {
   "property": "C43",
   "status": "proved",
   "theorems": [
    "C43_create",
    "C43_invalid",
    "C43_types"
   ],
   "note": "For every history of registerType; the class of the first registration under a name is the one created (std::map::insert), see the model."
  },
  {
   "property": "C44",
   "status": "partial",
   "theorems": [
    "C44_distinct",
    "C44_stable",
    "C44_create",
    "C44_dense",
    "C44_shared_ptr",
    "C44_null_unchanged",
    "C44_portable_refuted",
    "C44_default_refuted",
    "C44_null_refuted",
    "C44_hostile_refuted",
    "C44_outside",
    "C44_negative_refuted"
   ],
   "note": "Distinctness, stability and create proved for every history of type()/TypeRegister uses; shared_ptr pack/unpack round trip proved relative to a per-class codec. Refuted: identifiers agreeing between processes, create giving a default object, null pointers surviving the round trip, hostile identifiers being rejected."
  },
  {
   "property": "C45",
   "status": "partial",
   "theorems": [
    "C45_values",
    "C45_no_ub",
    "C45_owner",
    "C45_no_leak",
    "C45_self_assign_refuted",
    "C45_alias_refuted",
    "C45_throw_refuted",
    "C45_self_assign"
   ],
   "note": "Refinement of poly variables to value semantics for every history without aliased assignment and without throwing constructors (no use after free, no double delete, no leak, deep copies). Refuted for self assignment, x=*x and a throwing constructor in addObject."
  },
  {
   "property": "C46",
   "status": "partial",
   "theorems": [
    "C46_poly_roundtrip",
    "C46_weak_ptr_partial",
    "C46_weak_null_refuted"
   ],
   "note": "shared/unique pointers proved; weak pointer proved except null source with live destination, which is refuted (null dereference)"
  },
  {
   "property": "C47",
   "status": "partial",
   "theorems": [
    "C47_gather",
    "C47_const",
    "C47_const_refuted",
    "C47_const_sizes",
    "C47_total",
    "C47_packed"
   ],
   "note": "Collective call modelled as a function on all processes' buffers with MPI's matching rules. Proved without const_buffer below 2^31 bytes; with const_buffer root keeps size() equal to one process's share (C47_const, refuted)."
  },
  {
   "property": "C48",
   "status": "partial",
   "theorems": [
    "C48_scatter",
    "C48_next_mark",
    "C48_repeat_refuted",
    "C48_position_refuted",
    "C48_too_few_marks",
    "C48_offsets"
   ],
   "note": "First scatter after construction proved. Refuted for repeated use: offsctr is never reset, so the next mark writes outside the table; the receivers' read position is not reset."
  },
  {
   "property": "C49",
   "status": "partial",
   "theorems": [
    "C49_bookkeeping",
    "C49_all_answered",
    "C49_exec",
    "C49_progress",
    "C49_terminates",
    "C49_bcast",
    "C49_exec_refuted",
    "C49_no_reply_refuted",
    "C49_bcast_refuted",
    "C49_bcast_wait_refuted",
    "C49_bcast_data_refuted",
    "C49_run",
    "C49_get"
   ],
   "note": "Transition system with FIFO channels, proved for every interleaving of exec, slave steps and get_returnv with requests that are answered; refuted for bcast, methods without reply and exec with no idle slave."
  },
  {
   "property": "C50",
   "status": "partial",
   "theorems": [
    "C50_output",
    "C50_order",
    "C50_deterministic",
    "C50_recorded",
    "C50_kept",
    "C50_base_refuted",
    "C50_output_again_refuted"
   ],
   "note": "The output recursion ends for every dependency graph, writes every type once, dependencies first when the graph is acyclic. Refuted: base classes given to addBase are not recorded; a dependency without a definition gets an empty one on output and can never be defined afterwards."
  },
  {
   "property": "C51",
   "status": "partial",
   "theorems": [
    "C51_balanced",
    "C51_seq_def",
    "C51_enum_def",
    "C51_generated",
    "C51_any_refuted",
    "C51_any",
    "C51_base_refuted",
    "C51_string_refuted"
   ],
   "note": "Proved for every properly nested sequence of calls and for the schema of every class whose names contain no angle brackets. Refuted: xs:any outside a sequence for member-less classes; a base class after a member; the base class xs::string drops a quote."
  },
  {
   "property": "C52",
   "status": "partial",
   "theorems": [
    "C52_token",
    "C52_tokens",
    "C52_terminates",
    "C52_eof",
    "C52_contiguous",
    "C52_pragma_refuted",
    "C52_swallow_refuted",
    "C52_attr_refuted",
    "C52_string_refuted",
    "C52_last_refuted",
    "C52_identifier_characters",
    "C52_plain_text",
    "C52_last_identifier",
    "C52_last_continued"
   ],
   "note": "Proved for every file: each token is the next lexeme (identifier, literal, longest operator) after spaces, comments, preprocessor lines and foreign characters; tokenising ends unless an attribute is not closed. Refuted: '[[' inside a string or comment loops or swallows code; #pragma tokens lose the character after a slash; a preprocessor line ending in a slash swallows the next; a token at the very end is lost."
  },
  {
   "property": "C53",
   "status": "partial",
   "theorems": [
    "C53_stops",
    "C53_pair",
    "C53_only",
    "C53_eof",
    "C53_angle",
    "C53_angle_refuted",
    "C53_template",
    "C53_template_refuted",
    "C53_template_double"
   ],
   "note": "Proved for any nesting, with the converse and the end-of-file case; for angle brackets with >> proved unless three are open (refuted there). get_template_args proved for parameter lists with defaults; refuted when a default ends in >>."
  },
  {
   "property": "C54",
   "status": "partial",
   "theorems": [
    "C54_none",
    "C54_one",
    "C54_two",
    "C54_two_refuted",
    "C54_part_refuted",
    "C54_terminates",
    "C54_empty"
   ],
   "note": "Proved for no and for one occurrence; the exact (wrong) result for two occurrences is proved too. Refuted: two occurrences double the text, longer identifiers are changed. Empty name never ends."
  },
  {
   "property": "C55",
   "status": "partial",
   "theorems": [
    "C55_prefix",
    "C55_nested_refuted",
    "C55_last_refuted",
    "C55_unclosed"
   ],
   "note": "Proved for every file built from tokens, braces, namespaces, aliases, using, pragmas, parentheses and declarations, for any handler of declarations that reads just its own tokens. Refuted: A::B namespaces; a closing brace as last character."
  },
  {
   "property": "C56",
   "status": "partial",
   "theorems": [
    "C56_big_endian",
    "C56_round_trip",
    "C56_head",
    "C56_format",
    "C56_counts_refuted",
    "C56_foreign_refuted",
    "C56_long_refuted",
    "C56_stale_refuted",
    "C56_pool_large",
    "C56_string_large",
    "C56_vector_large",
    "C56_constants",
    "C56_string_any",
    "C56_string_cut_refuted"
   ],
   "note": "Big-endian numbers and the round trip are proved for counts and string lengths below 2^15; vector counts are written as 8 native bytes instead of 16-bit big-endian (C56_format, C56_counts_refuted), counts and lengths from 2^15 on fail (C56_pool_large, C56_string_large, C56_vector_large), long constants are counted once, unknown tags are lost."
  },
  {
   "property": "C57",
   "status": "proved",
   "theorems": [
    "C57_line"
   ],
   "note": "dump_base.h format for description strings without NUL bytes."
  },
  {
   "property": "C58",
   "status": "partial",
   "theorems": [
    "C58_json_partial",
    "C58_json_dot_refuted",
    "C58_xml_unchanged",
    "C58_xml_refuted",
    "C58_json_null"
   ],
   "note": "JSON: round trip for keys without dots, refuted otherwise. XML: reading never changes a StringKeyMap (proved for every document), so the round trip is refuted for every non-empty map."
  },
  {
   "property": "C59",
   "status": "partial",
   "theorems": [
    "C59_file_roundtrip_partial",
    "C59_size_partial",
    "C59_size_refuted",
    "C59_failed_read_refuted",
    "C59_last_write",
    "C59_size_place",
    "C59_rewind_refuted",
    "C59_seeki_refuted",
    "C59_reads",
    "C59_more_refuted",
    "C59_seeko_refuted"
   ],
   "note": "Data and pos() proved for histories of writes, rewinds and moves that stay inside the file. Refuted: size() ignores raw writes and what is left after rewinding; moving back beyond the beginning changes size() or pos() only; a failed read loses data; a reading buffer never reports more data."
  },
  {
   "property": "C60",
   "status": "proved",
   "theorems": [
    "C60_iterator",
    "C60_detached"
   ],
   "note": "any container of any plain type, any valid position"
  },
  {
   "property": "C61",
   "status": "partial",
   "theorems": [
    "C61_copy",
    "C61_assign_appends",
    "C61_assign_refuted",
    "C61_marks",
    "C61_reset"
   ],
   "note": "Copy construction proved; assignment appends to the old contents (refuted)."
  },
  {
   "property": "C62",
   "status": "partial",
   "theorems": [
    "C62_same_tag",
    "C62_tags_refuted",
    "C62_truncate_refuted",
    "C62_size_refuted",
    "C62_match"
   ],
   "note": "Proved for sendtag equal to recvtag; the probe uses sendtag, so refuted otherwise."
  },
  {
   "property": "C63",
   "status": "proved",
   "theorems": [
    "C63_bcast"
   ],
   "note": "Proved below 2^31 bytes."
  },
  {
   "property": "C64",
   "status": "partial",
   "theorems": [
    "C64_terminates",
    "C64_recursive_refuted"
   ],
   "note": "Proved when classes do not contain themselves; refuted for a class holding a shared_ptr to its own type, whose generation never ends."
  },
  {
   "property": "C65",
   "status": "partial",
   "theorems": [
    "C65_echo",
    "C65_attr_refuted"
   ],
   "note": "Proved for files without '[['; a final backslash or bracket is not written. Refuted with attributes: they are dropped and the next character is doubled."
  },
  {
   "property": "C66",
   "status": "proved",
   "theorems": [
    "C66_args",
    "C66_unnamed_refuted",
    "C66_defaults",
    "C66_paren_refuted"
   ],
   "note": "Proved as stated, with default arguments of template arguments nested to any depth. Outside the statement: unnamed parameters, and a comma inside parentheses of a default argument (refuted)."
  },
  {
   "property": "C67",
   "status": "proved",
   "theorems": [
    "C67_methods"
   ],
   "note": ""
  },
  {
   "property": "C68",
   "status": "partial",
   "theorems": [
    "C68_arglist",
    "C68_array_refuted",
    "C68_member",
    "C68_class",
    "C68_descriptor",
    "C68_nested_refuted",
    "C68_capital",
    "C68_header"
   ],
   "note": "Proved for all function types over the supported types; an array of int in a signature is mapped to the misspelt jintArry (C68_array_refuted)."
  },
  {
   "property": "C69",
   "status": "proved",
   "theorems": [
    "C69_terminates"
   ],
   "note": "For all token streams. The remaining outcome CBad stands for replaceShornTypes with an empty name, extract_targs or pop_name failing."
  },
  {
   "property": "C70",
   "status": "partial",
   "theorems": [
    "C70_members",
    "C70_const_leak_refuted",
    "C70_static_list_refuted",
    "C70_static_const_function_refuted",
    "C70_template_leak_refuted",
    "C70_initialiser_refuted",
    "C70_braced_init_list_refuted",
    "C70_flexible_array_refuted",
    "C70_not_a_function_refuted",
    "C70_unnamed_bits_refuted",
    "C70_private_enum_refuted",
    "C70_unnamed_struct_refuted"
   ],
   "note": "Proved for class bodies in the grammar of ClassParse_Spec, with overloading off; the refuted theorems show classes outside it, or with leaking const, that are recorded wrongly."
  },
  {
   "property": "C71",
   "status": "partial",
   "theorems": [
    "C71_bases",
    "C71_template_word_refuted",
    "C71_final_refuted"
   ],
   "note": "Proved for base clauses of the grammar; final, export macros and the template keyword are refuted."
  },
  {
   "property": "C72",
   "status": "partial",
   "theorems": [
    "C72_enum",
    "C72_variable_refuted",
    "C72_empty_refuted",
    "C72_comma_refuted",
    "C72_struct_refuted"
   ],
   "note": "Proved for enumerations of the grammar; declarators after the brace, empty enumerations, commas in values and enum struct are refuted."
  },
  {
   "property": "C73",
   "status": "partial",
   "theorems": [
    "C73_file",
    "C73_local_class_refuted",
    "C73_typedef_pointer_refuted",
    "C73_typedef_attribute_refuted",
    "C73_typedef_array_refuted",
    "C73_typedef_qualified_refuted",
    "C73_typedef_enum_refuted",
    "C73_bare_pragma_refuted",
    "C73_merge",
    "C73_tmp_names",
    "C73_qualified",
    "C73_tmp_fresh",
    "C73_nameless_error"
   ],
   "note": "Proved for files of the grammar of ClassFile_Spec: namespaces, classes and class templates nested to any depth, enumerations, pragmas, functions, using, and typedefs, also of structures and unions defined in them. Refuted: local classes are recorded as global; a typedef of an unnamed structure that ends with a pointer, an attribute or an array gets a wrong name; a typedef of a class named with its scope derails the parser; typedefs of enumerations are not described; a bare pragma ends the program."
  },
  {
   "property": "C74",
   "status": "partial",
   "theorems": [
    "C74_once",
    "C74_again",
    "C74_included",
    "C74_collision_refuted",
    "C74_undeclared_twice_refuted",
    "C74_work_include"
   ],
   "note": "C74_once and C74_again are about the output after the preprocessor, for any sequence of types and descriptors. Refuted: two types whose names give the same macro share a guard, and the block of the second is never seen; the definition made up for a class that is only declared is in no conditional section."
  },
  {
   "property": "C75",
   "status": "partial",
   "theorems": [
    "C75_dummies",
    "C75_once",
    "C75_printed",
    "C75_defined_refuted",
    "C75_specialisation_refuted"
   ],
   "note": "Proved for every sequence of declarations and definitions of the names as they are recorded. Refuted: a template specialisation that is only declared gets a definition with no meaning, and see C75_defined_refuted for a class whose declaration and definition are recorded under different names."
  },
  {
   "property": "C76",
   "status": "partial",
   "theorems": [
    "C76_nested",
    "C76_relative",
    "C76_workdir",
    "C76_workdir_own_refuted"
   ],
   "note": "The nested typedefs are those of the innermost scope of each name; C76_relative for types inside structures defined in typedefs. Refuted: in a work directory the own nested names of the class are left out."
  },
  {
   "property": "C77",
   "status": "partial",
   "theorems": [
    "C77_file",
    "C77_workdir",
    "C77_workdir_object_refuted",
    "C77_template_enum_refuted",
    "C77_typedef_keyword_refuted",
    "C77_typedef_scope_refuted",
    "C77_typedef",
    "C77_typedef_omit_refuted"
   ],
   "note": "C77_typedef: the text for each class, enumeration, template and structure or union defined in a typedef, of every file of the grammar, after the preprocessor (names in typedefs must not begin like keywords); C77_file the same in another form for files without such typedefs; C77_workdir for the files of a work directory, without such typedefs. Refuted: member functions in a work directory lack the object; enumerations inside templates; structures defined in typedefs are named without scope, and a name that begins like a keyword is cut; a pragma does not leave out a type nested in one whose name has one letter."
  },
  {
   "property": "C78",
   "status": "partial",
   "theorems": [
    "C78_names",
    "C78_printed",
    "C78_unnamed_refuted",
    "C78_value_name_refuted",
    "C78_angle",
    "C78_angle_refuted",
    "C78_keyword_end"
   ],
   "note": "C78_names and C78_printed: the names of template parameters as written in the class name, for every list of parameters. Refuted: a parameter without a name, a value parameter whose name holds the word class, and a parameter whose type is a member of a template."
  },
  {
   "property": "C79",
   "status": "partial",
   "theorems": [
    "C79_table",
    "C79_branches_refuted"
   ],
   "note": "Tables proved for every enumeration of a file of the grammar, also of structures defined in typedefs; conditional branches of a source are merged (refuted)."
  },
  {
   "property": "C80",
   "status": "partial",
   "theorems": [
    "C80_key",
    "C80_block",
    "C80_error",
    "C80_header",
    "C80_joined_refuted",
    "C80_bare_refuted",
    "C80_later_refuted",
    "C80_blanks"
   ],
   "note": "Proved for every pragma and every recorded type. Refuted: descriptor and type name are joined without separator, so that a pragma may leave out another type of another descriptor; a pragma without a name takes the next line for it; the pragmas of the header of a descriptor hold for the later descriptors too."
  },
  {
   "property": "C81",
   "status": "partial",
   "theorems": [
    "C81_temporaries",
    "C81_distinct",
    "C81_one",
    "C81_clash_refuted",
    "C81_branches_refuted",
    "C81_declared",
    "C81_typename",
    "C81_block",
    "C81_signatures",
    "C81_typename",
    "C81_default_refuted",
    "C81_blank_refuted",
    "C81_global_refuted",
    "C81_callback_refuted",
    "C81_shift_refuted",
    "C81_qualifier_refuted"
   ],
   "note": "C81_temporaries holds for every class and token stream; that the temporary has one declaration is proved when no member is named like another one with digits added (C81_one), and fails otherwise (C81_clash_refuted) or when the class has two definitions (C81_branches_refuted). C81_signatures gives the return type, parameters and kind of every declaration for classes that are no templates, C81_typename and C81_declared its text. Refuted: defaults with a comma outside braces, ( ) with a blank, a first parameter that does not begin with an identifier or is a function pointer, return types with >>, volatile and reference qualifiers. Not covered: the signatures in class templates, where replaceShornTypes changes the types (C54)."
  },
  {
   "property": "C82",
   "status": "partial",
   "theorems": [
    "C82_options",
    "C82_version",
    "C82_unknown",
    "C82_ends_refuted",
    "C82_missing",
    "C82_path",
    "C82_settings",
    "C82_no_arguments"
   ],
   "note": "Proved for every command line; an unknown option makes the program loop for ever (C82_unknown, C82_ends_refuted)."
  },
  {
   "property": "C83",
   "status": "partial",
   "theorems": [
    "C83_class",
    "C83_private_nested_refuted",
    "C83_elaborated_refuted",
    "C83_friend_body_refuted",
    "C83_alias_refuted",
    "C83_operator_template_refuted",
    "C83_union_name_refuted",
    "C83_inside_template_refuted",
    "C83_typedef_scope_refuted"
   ],
   "note": "C83_class gives the exact result of parse_class for every body of the inductive grammar [body] (ClassFile_Spec.v): members of every kind, nested classes at any depth, what is recorded in passing. Not covered: qt and objc modes, unnamed structures, member class templates, typedefs that define a structure. The refuted statements show where the parser departs from the property: classes inside private classes are described, elaborated types and names of unions are taken for members, friend bodies end the class, aliases hide members, operator templates hide the next function."
  },
  {
   "property": "C84",
   "status": "partial",
   "theorems": [
    "C84_qualified",
    "C84_dependent",
    "C84_template",
    "C84_specialised",
    "C84_name",
    "C84_onbase_typename_refuted",
    "C84_guard_refuted",
    "C84_nested_refuted",
    "C84_omit_refuted"
   ],
   "note": "C84_template and C84_specialised give the text printed for a template or a full specialisation at file scope between arbitrary declarations; C84_name the text of its name; C84_qualified and C84_dependent say when typename is written. Not covered: member templates, a template in a class, template template arguments in a qualified class name, -overload. Refuted: type() with -onbase leaves typename out, partial specialisations that differ in punctuation share a guard, classes nested in a full specialisation are not described, an enumeration of a specialisation cannot be omitted by pragma."
  },
  {
   "property": "C85",
   "status": "partial",
   "theorems": [
    "C85_inserts",
    "C85_terminates",
    "C85_option_refuted",
    "C85_template",
    "C85_template_refuted",
    "C85_enum_class_refuted",
    "C85_final_refuted",
    "C85_qualified_refuted",
    "C85_nested_refuted",
    "C85_comma_refuted"
   ],
   "note": "fr is a grammar of marked tokens, independent of the parser; structs and specialisations have bodies in which nested classes are only mentioned or are unlabelled structs (bare). Refuted: enum class, final classes, qualified names, nested classes, class templates (undefined behaviour), any option."
  },
  {
   "property": "C86",
   "status": "proved",
   "theorems": [
    "C86_copy",
    "C86_output",
    "C86_split_refuted"
   ],
   "note": "Proved as stated: C86_copy for all files without attributes; C86_output gives the exact output for tokens each followed by one blank. C86_split_refuted shows why the second needs the blanks: a word right after a brace is split by the insertion."
  },
  {
   "property": "C87",
   "status": "proved",
   "theorems": [
    "C87_roundtrip",
    "C87_nul_refuted",
    "C87_key_refuted",
    "C87_uint_refuted"
   ],
   "note": "Proved as stated: documents with int64 numbers and UTF-8 strings without NUL, in every reachable heap. The refuted theorems are about documents outside the statement: NUL cuts strings and makes names collide, numbers from 2^63 turn negative."
  },
  {
   "property": "C88",
   "status": "partial",
   "theorems": [
    "C88_counts",
    "C88_clean",
    "C88_assign_refuted",
    "C88_member_refuted",
    "C88_array_refuted",
    "C88_get_refuted",
    "C88_null_refuted",
    "C88_utf8_refuted",
    "C88_cycle_refuted"
   ],
   "note": "Safety and exact counts are proved for all programs without PythonBuffer(nullptr) and undecodable strings; the counts include the references the code abandons, whose number is computed. Refuted: assignment, object members, array() and get abandon references; PythonBuffer(nullptr) and invalid UTF-8 are undefined behaviour; a list containing itself is read for ever (proved: only then). Simplifications are listed at the top of PyBuf_Model.v."
  },
  {
   "property": "C89",
   "status": "partial",
   "theorems": [
    "C89_stream",
    "C89_class_refuted",
    "C89_chars_refuted",
    "C89_char_refuted",
    "C89_text",
    "C89_char_value",
    "C89_bool_value",
    "C89_double_value"
   ],
   "note": "Proved for numbers, bool, char, strings, enumerations and resizable sequences nested to any depth of these and of classes. Refuted: a class on its own is written as text and not read back; sequences of char; char of 0x80 or more."
  },
  {
   "property": "C90",
   "status": "partial",
   "theorems": [
    "C90_paths",
    "C90_reachable",
    "C90_orphan_refuted",
    "C90_collision_refuted",
    "C90_module",
    "C90_enum_refuted"
   ],
   "note": "Termination and the exact meaning of every path are proved. Refuted: a name whose parent is not registered is unreachable; @x is hidden by _x; an object called enum is overwritten."
  },
  {
   "property": "C91",
   "status": "partial",
   "theorems": [
    "C91_attributes",
    "C91_setattr_refuted",
    "C91_none_lost",
    "C91_none_refuted"
   ],
   "note": "Proved for all sequences without assignment of an attribute from Python and without insert and erase. Refuted for these: setAttro steals the reference it is lent, insert and erase return None without a reference to it (with the exact loss proved for every number of calls)."
  },
  {
   "property": "C92",
   "status": "partial",
   "theorems": [
    "C92_path",
    "C92_read",
    "C92_read_json",
    "C92_write",
    "C92_write_read",
    "C92_null_pointer",
    "C92_enum_suffix_refuted",
    "C92_enum_integer_refuted",
    "C92_string_number_refuted",
    "C92_sequence_refuted",
    "C92_large_integer_refuted",
    "C92_hidden_refuted",
    "C92_convert",
    "C92_refuse"
   ],
   "note": "Types: fundamental, string, enum, sequence, pair, class with base classes, shared_ptr. Refuted: enum members accept any suffix and ignore integers; numbers become one-character strings; unwrapped arrays do not assign sequences; integers from 2^63 on; hidden members."
  },
  {
   "property": "C93",
   "status": "proved",
   "theorems": [
    "C93_typed",
    "C93_real_refuted"
   ],
   "note": "Proved as stated (class members have distinct names without dots). C93_real_refuted shows that the range condition is needed."
  },
  {
   "property": "C94",
   "status": "proved",
   "theorems": [
    "C94_readonly",
    "C94_insert_refuted",
    "C94_erase_refuted"
   ],
   "note": "Proved as stated. C94_insert_refuted and C94_erase_refuted show that the two commands have to be excluded: they act without an argument."
  },
  {
   "property": "C95",
   "status": "proved",
   "theorems": [
    "C95_list",
    "C95_enum_refuted",
    "C95_sequence",
    "C95_scalar",
    "C95_pointer"
   ],
   "note": "Proved as stated (class members have distinct names without dots, none called @list). C95_enum_refuted shows that the names of enumerations have to be excluded."
  },
  {
   "property": "C96",
   "status": "partial",
   "theorems": [
    "C96_document",
    "C96_reads",
    "C96_attributes_unread",
    "C96_attribute_refuted",
    "C96_empty_attribute_refuted",
    "C96_blank_attribute_refuted",
    "C96_apostrophe_refuted",
    "C96_comment_space_refuted",
    "C96_comment_gt_refuted",
    "C96_comment_lt_refuted",
    "C96_quotes_refuted",
    "C96_dotted_refuted",
    "C96_layout"
   ],
   "note": "Proved for all documents of the grammar in XmlDoc_Spec (any nesting, any mixture of text, references, CDATA, comments, processing instructions, attributes): C96_document gives the records, C96_reads the object, C96_layout that layout has no influence. Attributes are never read into members (C96_attributes_unread). The grammar's side conditions are needed, as the refuted statements show: empty or blank attribute values, apostrophes and quotes in text, angle brackets in comments, white space after comments, names with dots."
  },
  {
   "property": "C97",
   "status": "partial",
   "theorems": [
    "C97_elem",
    "C97_elem2",
    "C97_square",
    "C97_row",
    "C97_outside",
    "C97_value",
    "C97_value2",
    "C97_assign",
    "C97_assign2",
    "C97_safe",
    "C97_python",
    "C97_commands",
    "C97_python1",
    "C97_shape_refuted",
    "C97_unwrapped_refuted",
    "C97_type_refuted"
   ],
   "note": "Rank 1 proved as stated; rank 2 with the indices of the view, whose element i,j is the one at distance i*d0+j, so that only square arrays have the elements in their places (C97_square). Refuted: a[2][3] is shown as three rows of two; an array that is not wrapped in another assigns nothing; type and list of rank 2. From rank 3 on the code can not be instantiated."
  },
  {
   "property": "C98",
   "status": "partial",
   "theorems": [
    "C98_rand",
    "C98_valid",
    "C98_reach",
    "C98_enum_reach",
    "C98_recursive",
    "C98_enum_past",
    "C98_rand_one_refuted",
    "C98_enum_refuted",
    "C98_long_refuted",
    "C98_char_refuted",
    "C98_enum_missed_refuted",
    "C98_array_refuted",
    "C98_map_refuted",
    "C98_recursive_refuted",
    "C98_scalar",
    "C98_string",
    "C98_draws"
   ],
   "note": "Proved for every generator that keeps to [0..1), with rounding of doubles; the generator of the library keeps to it except for RAND_MAX (C98_rand). Refuted: rand() can be 1, then an enumeration is read behind its table and a 64 bit integer does not fit; arrays are never initialised; a map gets one new key at most; enumerators after repeated values are never chosen; a class with a smart pointer to itself is initialised forever. Values of floating point numbers are represented by their draws."
  },
  {
   "property": "C99",
   "status": "partial",
   "theorems": [
    "C99_class",
    "C99_attribute",
    "C99_line_refuted",
    "C99_written",
    "C99_functions",
    "C99_header",
    "C99_symbol",
    "C99_symbol_refuted",
    "C99_calls",
    "C99_calls_refuted",
    "C99_file",
    "C99_last_component",
    "C99_exception"
   ],
   "note": "The class file is complete for every list of members that fits (C99_class, C99_written); one function per method with matching parameters (C99_functions, C99_header). Refuted: an underscore in a name is not escaped, so the virtual machine does not find the function; the functor is a static local, so a method acts on the object of its first call; the LineNumberTable attribute is named by whatever entry 7 is. That the file itself is not in the class file format is C56_counts_refuted."
  },
  {
   "property": "C100",
   "status": "partial",
   "theorems": [
    "C100_set",
    "C100_sound",
    "C100_plain",
    "C100_undescribed",
    "C100_virtual",
    "C100_refuted",
    "C100_test_refuted"
   ],
   "note": "isa_base.h and what typeid gives for references into polymorphic objects. C100_set says exactly which classes are collected; positive answers are right (C100_sound), and without virtual functions the answer is exact (C100_plain). Refuted: bases with virtual functions are never recognised (C100_virtual, C100_refuted), which the test program turns into a success (C100_test_refuted)."
  },
  {
   "property": "C101",
   "status": "partial",
   "theorems": [
    "C101_clone",
    "C101_same",
    "C101_refuted",
    "C101_cloneT",
    "C101_cloneT_null"
   ],
   "note": "Poly::clone and cloneT on a heap of objects. The clone has the class of the nearest base wrapped by Poly (C101_clone, C101_same); cloneT returns it or nothing, and leaves nothing behind (C101_cloneT, C101_cloneT_null). Refuted: classes derived further without Poly are sliced (C101_refuted)."
  },
  {
   "property": "C102",
   "status": "partial",
   "theorems": [
    "C102_injective",
    "C102_arguments",
    "C102_const",
    "C102_same",
    "C102_refuted",
    "C102_arrays",
    "C102_arrays_refuted"
   ],
   "note": "Types without top-level const pointers, rvalue references, functions, iterators and non-default template arguments have different names (C102_injective, C102_arguments); for the others names coincide (C102_refuted, C102_same, C102_const); the dimensions of arrays of arrays are printed in reverse (C102_arrays_refuted)."
  },
  {
   "property": "C103",
   "status": "partial",
   "theorems": [
    "C103_all",
    "C103_replaced",
    "C103_refuted"
   ],
   "note": "Uses the registry of C38 with the names typeName gives. All overloads with different plain arguments are kept (C103_all); overloads whose argument types only differ where typeName does not tell, e.g. std::function of different signatures, replace each other (C103_refuted)."
  },
  {
   "property": "C104",
   "status": "partial",
   "theorems": [
    "C104_readable",
    "C104_leaves",
    "C104_balanced",
    "C104_container_refuted",
    "C104_null_refuted",
    "C104_string_refuted"
   ],
   "note": "Proved for types whose pairs are elements of containers and whose pointers point to numbers, containers or classes, for texts of numbers without spaces and strings without line ends (C104_readable), braces match (C104_balanced). Refuted outside: containers of numbers dumped with a description without dots run together (C104_container_refuted), null pointers to strings (C104_null_refuted), strings with line ends (C104_string_refuted)."
  },
  {
   "property": "C105",
   "status": "partial",
   "theorems": [
    "C105_stack",
    "C105_common",
    "C105_found",
    "C105_all",
    "C105_two_refuted",
    "C105_throw_refuted",
    "C105_reenter_refuted"
   ],
   "note": "For every state the open scopes are those of the name (C105_stack) and common scopes are kept (C105_common). If each name leaves at most one open scope and does not enter a scope again, everything registered is found in the end (C105_found, C105_all). Refuted outside: leaving two scopes at once restores the wrong one, because vector::erase destroys the scopes from the outermost in (C105_two_refuted, C105_throw_refuted), and a scope entered again hides what was in it (C105_reenter_refuted)."
  },
  {
   "property": "C106",
   "status": "proved",
   "theorems": [
    "C106_name",
    "C106_injective",
    "C106_scopes",
    "C106_same",
    "C106_distinct",
    "C106_single"
   ],
   "note": "Proved for names whose components have balanced angle brackets. That boost::python::scope makes the object current and the constructor of the class registers in it is taken from boost."
  },
  {
   "property": "C107",
   "status": "partial",
   "theorems": [
    "C107_ends",
    "C107_all",
    "C107_only",
    "C107_twice_refuted",
    "C107_abstract"
   ],
   "note": "C107_ends with a bound on the depth of calls, C107_all, C107_only. Members that are C arrays are left out of the model. A class reached again while it is being defined gets its members twice (C107_twice_refuted), which boost takes for overloads."
  },
  {
   "property": "C108",
   "status": "partial",
   "theorems": [
    "C108_registry",
    "C108_type",
    "C108_cleared",
    "C108_cast_refuted"
   ],
   "note": "Proved for every sequence of calls without clear (C108_registry); never an object of another type (C108_type). After clear the exception is not always the one intended: std::bad_cast when a new class has taken the number (C108_cast_refuted)."
  },
  {
   "property": "C109",
   "status": "partial",
   "theorems": [
    "C109_get",
    "C109_iterate",
    "C109_set",
    "C109_set_class",
    "C109_set_refuted",
    "C109_list",
    "C109_map",
    "C109_keys",
    "C109_array",
    "C109_array_set",
    "C109_array_bounds",
    "C109_array_refuted",
    "C109_array_iter",
    "C109_set_bounds",
    "C109_set_row"
   ],
   "note": "Sequences of basic elements and maps proved as stated; elements of class type cannot be assigned, without an error (C109_set_class, C109_set_refuted); C arrays are in row-major order, but the index is not tested, so that iterating over one always ends in undefined behaviour (C109_array_bounds, C109_array_iter, C109_array_refuted)."
  },
  {
   "property": "C110",
   "status": "partial",
   "theorems": [
    "C110_exact",
    "C110_roundtrip",
    "C110_wide_refuted",
    "C110_max_refuted",
    "C110_collapse",
    "C110_assoc",
    "C110_fixed",
    "C110_sequence",
    "C110_kind",
    "C110_mismatch",
    "C110_json",
    "C110_construct_refuted",
    "C110_construct",
    "C110_of_kind",
    "C110_string_refuted",
    "C110_int_real",
    "C110_object_number",
    "C110_first_char",
    "C110_assign_type",
    "C110_kept",
    "C110_object_throws"
   ],
   "note": "Proved for numbers, strings, enumerations, resizable sequences and everything whose JSON form is an object (C110_roundtrip). Refuted: plain integers beyond 53 bits (C110_collapse for every odd one between 2^53 and 2^54), 64 bit integers in the constructor and in JSON arguments, sets and maps (C110_assoc: always throws), std::array (C110_fixed: never changed), buffers constructed for the kinds string, object and null."
  },
  {
   "property": "C111",
   "status": "partial",
   "theorems": [
    "C111_enumerators",
    "C111_class",
    "C111_hidden_refuted",
    "C111_other",
    "C111_kept",
    "C111_clash_refuted",
    "C111_again",
    "C111_same_scope",
    "C111_top_scope"
   ],
   "note": "Proved for every enumeration and sequence of definitions (C111_enumerators, C111_class, C111_kept, C111_other). Refuted: an enumerator named like its enumeration hides it; enumerators exported to a scope replace those of the same name from another enumeration."
  },
  {
   "property": "C112",
   "status": "partial",
   "theorems": [
    "C112_split",
    "C112_added",
    "C112_works",
    "C112_namespace_refuted",
    "C112_all"
   ],
   "note": "Proved for every path whose module can be imported (C112_added, C112_works, C112_all). Refuted: a path through a namespace or class, which is no module, throws, contrary to the comment in the header."
  },
  {
   "property": "C113",
   "status": "partial",
   "theorems": [
    "C113_call",
    "C113_special",
    "C113_empty",
    "C113_counts",
    "C113_extra_refuted",
    "C113_leak_refuted",
    "C113_item",
    "C113_del_refuted"
   ],
   "note": "What is delivered and returned, and the exact counts, proved for every heap, command and argument list (C113_call, C113_special, C113_empty, C113_item, C113_counts). Refuted: further arguments of @-commands are ignored, every argument loses references and is never freed, del w[k] assigns null and takes away a reference to None."
  },
  {
   "property": "C114",
   "status": "partial",
   "theorems": [
    "C114_latest",
    "C114_untouched",
    "C114_assign_refuted",
    "C114_hides_refuted"
   ],
   "note": "C114_latest, C114_untouched. Refuted: assigning to a member hides it instead of setting it (C114_assign_refuted); members hide the wrapper's own methods (C114_hides_refuted)."
  }
 ]
}