{
 "claims": [
  {
   "property": "C01",
   "status": "proved",
   "theorems": [
    "C01_pack_unpack"
   ],
   "note": "All byte strings."
  },
  {
   "property": "C02",
   "status": "proved",
   "theorems": [
    "C02_smart_sequence",
    "C02_smart_single",
    "C02_empty_writes_nothing"
   ],
   "note": "All byte strings."
  },
  {
   "property": "C03",
   "status": "proved",
   "theorems": [
    "C03_smart_unpack_safe",
    "C03_unpack_safe",
    "C03_get32_safe",
    "C03_get16_safe"
   ],
   "note": "All byte strings."
  },
  {
   "property": "C04",
   "status": "proved",
   "theorems": [
    "C04_hex_roundtrip",
    "C04_hex_accepts_iff"
   ],
   "note": "All byte strings."
  },
  {
   "property": "C05",
   "status": "proved",
   "theorems": [
    "C05_equality"
   ],
   "note": "All byte strings."
  },
  {
   "property": "C06",
   "status": "proved",
   "theorems": [
    "C06_roundtrip",
    "C06_total",
    "C06_only_wellformed",
    "C06_empty_not_transmitted"
   ],
   "note": "The empty string is characterised exactly (C06_empty_not_transmitted)."
  },
  {
   "property": "C07",
   "status": "proved",
   "theorems": [
    "C07_xor_involution",
    "C07_xor_empty_mask"
   ],
   "note": "All byte strings."
  },
  {
   "property": "C08",
   "status": "proved",
   "theorems": [
    "C08_get_subset",
    "C08_wrap_refuted"
   ],
   "note": "Holds under the stated no-wrap condition; C08_wrap_refuted shows the condition is needed."
  },
  {
   "property": "C09",
   "status": "proved",
   "theorems": [
    "C09_encode_exact",
    "C09_roundtrip",
    "C09_shape"
   ],
   "note": "All byte strings, any length below 2^31."
  },
  {
   "property": "C10",
   "status": "partial",
   "theorems": [
    "C10_decode_exact",
    "C10_length",
    "C10_encode_injective",
    "C10_text_refuted"
   ],
   "note": "Exact function of the text; injectivity on arbitrary text refuted (C10_text_refuted), injectivity of the encoding proved."
  },
  {
   "property": "C11",
   "status": "proved",
   "theorems": [
    "C11_ring_operations",
    "C11_second_order",
    "C11_division"
   ],
   "note": "All field elements, any prime modulus."
  },
  {
   "property": "C12",
   "status": "partial",
   "theorems": [
    "C12_roundtrip",
    "C12_zero_not_transmitted",
    "C12_out_of_bounds",
    "C12_value",
    "C12_order_refuted"
   ],
   "note": "Round trip of positive values, the value read and the exact out-of-bounds inputs are proved. Zero is not transmitted, and a value equal to the order is stored unreduced (refuted)."
  },
  {
   "property": "C13",
   "status": "proved",
   "theorems": [
    "C13_parse_total",
    "C13_no_comma_total",
    "C13_undated_total",
    "C13_list_total",
    "C13_dates_refuted"
   ],
   "note": "Every byte sequence without a date token; with dates under the stated day range. C13_dates_refuted: a date on day 0 is undefined behaviour."
  },
  {
   "property": "C14",
   "status": "proved",
   "theorems": [
    "C14_text_parses",
    "C14_unambiguous"
   ],
   "note": "All expressions, numbers, dates and blanks included; trees of comparisons are characterised by meaning."
  },
  {
   "property": "C15",
   "status": "proved",
   "theorems": [
    "C15_accepted_is_sentence",
    "C15_exact",
    "C15_colons_refuted"
   ],
   "note": "Both directions (C15_exact). C15_colons_refuted: names with an empty part between colons lose it."
  },
  {
   "property": "C16",
   "status": "proved",
   "theorems": [
    "C16_print_parse",
    "C16_numeric_refuted"
   ],
   "note": "Trees over legal names. C16_numeric_refuted: printed numeric comparisons are outside that set and do not reparse."
  },
  {
   "property": "C17",
   "status": "partial",
   "theorems": [
    "C17_read_in_full",
    "C17_rest_ignored",
    "C17_full_text_refuted"
   ],
   "note": "False: bytes 0 and 128-255 end the text silently; C17_read_in_full for 7-bit texts, C17_rest_ignored says exactly what happens otherwise."
  },
  {
   "property": "C18",
   "status": "proved",
   "theorems": [
    "C18_comparison",
    "C18_policy_meaning"
   ],
   "note": "All relations, widths, values, names (without an empty part between colons) and texts; C18_policy_meaning for whole policies and lists."
  },
  {
   "property": "C19",
   "status": "proved",
   "theorems": [
    "C19_range",
    "C19_empty_range"
   ],
   "note": "Both kinds of range, any list for empty ranges."
  },
  {
   "property": "C20",
   "status": "proved",
   "theorems": [
    "C20_other_values",
    "C20_bad_number_policy",
    "C20_bad_number_list"
   ],
   "note": "Both policies and lists."
  },
  {
   "property": "C21",
   "status": "proved",
   "theorems": [
    "C21_day_numbers",
    "C21_calendar",
    "C21_day_range",
    "C21_time_prefix_refuted",
    "C21_daylight_saving_refuted"
   ],
   "note": "C21_day_numbers as stated; C21_calendar and C21_day_range relate day numbers to calendar order in zones of constant offset. The prefix \"time\" and daylight saving are refuted."
  },
  {
   "property": "C22",
   "status": "proved",
   "theorems": [
    "C22_names",
    "C22_trailing_rejected",
    "C22_exact"
   ],
   "note": "Any number of leading separators, at most one trailing (more are rejected); C22_exact covers numbers and dates."
  },
  {
   "property": "C23",
   "status": "proved",
   "theorems": [
    "C23_compact_roundtrip"
   ],
   "note": "Every accepted list text."
  },
  {
   "property": "C24",
   "status": "partial",
   "theorems": [
    "C24_mixed_values_refuted",
    "C24_single_value_partial"
   ],
   "note": "False: refuted for two values of one name; holds with one value per name and width."
  },
  {
   "property": "C25",
   "status": "proved",
   "theorems": [
    "C25_add_to_root",
    "C25_operator_refuted"
   ],
   "note": "Legal names; C25_operator_refuted: texts with operators bind wrongly."
  },
  {
   "property": "C26",
   "status": "partial",
   "theorems": [
    "C26_secret_recovered",
    "C26_from_texts",
    "C26_colons_refuted"
   ],
   "note": "Proved for all parsed policies whose names have no \"%\" and no empty part between colons (C26_from_texts); both conditions are necessary (C26_colons_refuted, C30_percent_refuted)."
  },
  {
   "property": "C27",
   "status": "proved",
   "theorems": [
    "C27_recover_iff_satisfied",
    "C27_check_iff_satisfied",
    "C27_monotone"
   ],
   "note": "All AND/OR policies of any fan-out with clean marks (freshly parsed ones are: C26_from_texts); any sort permutation."
  },
  {
   "property": "C28",
   "status": "proved",
   "theorems": [
    "C28_privacy",
    "C28_tapes",
    "C28_tape_length",
    "C28_from_texts"
   ],
   "note": "Stated as equality of the multisets of visible rows over all tapes; also for THRESHOLD gates and any fan-out below p."
  },
  {
   "property": "C29",
   "status": "proved",
   "theorems": [
    "C29_held_sufficient_minimal"
   ],
   "note": "All policies."
  },
  {
   "property": "C30",
   "status": "proved",
   "theorems": [
    "C30_one_row_per_leaf",
    "C30_percent_refuted",
    "C30_from_text"
   ],
   "note": "C30_percent_refuted shows the '%' condition is needed."
  },
  {
   "property": "C31",
   "status": "partial",
   "theorems": [
    "C31_nary_refuted",
    "C31_nary_partial"
   ],
   "note": "False: refuted for three children; C31_nary_partial gives the part that holds."
  },
  {
   "property": "C32",
   "status": "proved",
   "theorems": [
    "C32_checks_independent"
   ],
   "note": "All AND/OR policies with clean marks, any finite sequence of lists."
  },
  {
   "property": "C33",
   "status": "partial",
   "theorems": [
    "C33_history_refuted",
    "C33_after_reset_partial",
    "C33_after_checks_partial"
   ],
   "note": "False: refuted (stale marks); holds after resetFlags and after any number of checks with reset."
  },
  {
   "property": "C34",
   "status": "partial",
   "theorems": [
    "C34_count_refuted",
    "C34_count_partial"
   ],
   "note": "False in general: refuted; holds when OR gates have only leaves below."
  },
  {
   "property": "C35",
   "status": "partial",
   "theorems": [
    "C35_cp_round_trip",
    "C35_short_names",
    "C35_any_names_refuted"
   ],
   "note": "Proved for every policy and list text, all randomness, both orders of key generation and encryption and every history of other calls that leaves the keys in place (C35_cp_round_trip); names of policy and list need pairwise different short forms (automatic up to 16 bytes, C35_short_names) and survive printing (see C16, C26). Without the condition on short forms the claim is refuted: code 0 with a wrong plaintext."
  },
  {
   "property": "C36",
   "status": "proved",
   "theorems": [
    "C36_refused",
    "C36_refused_texts",
    "C36_authorised_only"
   ],
   "note": "For every content of key and ciphertext whose policy text parses; malformed text is C93."
  },
  {
   "property": "C37",
   "status": "partial",
   "theorems": [
    "C37_kp_round_trip",
    "C37_any_names_refuted"
   ],
   "note": "As C35."
  },
  {
   "property": "C38",
   "status": "proved",
   "theorems": [
    "C38_refused",
    "C38_refused_texts",
    "C38_authorised_only"
   ],
   "note": "As C36."
  },
  {
   "property": "C39",
   "status": "partial",
   "theorems": [
    "C39_mask_exact",
    "C39_distinct_inputs",
    "C39_mask_refuted"
   ],
   "note": "False beyond 8192 bytes: one-byte counter (C39_mask_refuted, for every hash); distinct inputs below."
  },
  {
   "property": "C40",
   "status": "proved",
   "theorems": [
    "C40_container_roundtrip",
    "C40_into_existing",
    "C40_sorted"
   ],
   "note": "All containers, by induction over the entries; group encodings are parameters with the laws in curve_ok. Also into a container in use."
  },
  {
   "property": "C41",
   "status": "proved",
   "theorems": [
    "C41_ciphertext_roundtrip",
    "C41_bare_roundtrip"
   ],
   "note": "All ciphertexts with a 16-byte uid and at least one portable component, with and without header."
  },
  {
   "property": "C42",
   "status": "partial",
   "theorems": [
    "C42_accepted_header",
    "C42_bad_header_throws",
    "C42_header_unique",
    "C42_key_header",
    "C42_truncated_refuted",
    "C42_exit_refuted",
    "C42_crash_causes"
   ],
   "note": "Header checks proved for all blobs, ciphertexts and keys. That nothing else can happen is false (truncated exponent: undefined; group element of odd size: exit); C42_crash_causes lists the only causes."
  },
  {
   "property": "C43",
   "status": "proved",
   "theorems": [
    "C43_key_roundtrip"
   ],
   "note": "All keys with a 16-byte uid, a known scheme and at least one portable component."
  },
  {
   "property": "C44",
   "status": "partial",
   "theorems": [
    "C44_reports_missing",
    "C44_found_unchanged",
    "C44_lookup_refuted",
    "C44_export_defined"
   ],
   "note": "False for every container and missing name: the lookup inserts a null entry and export is then undefined. The reported error and the successful lookup are proved."
  },
  {
   "property": "C45",
   "status": "partial",
   "theorems": [
    "C45_exact_partial",
    "C45_numbers_and_elements",
    "C45_bytes_refuted",
    "C45_subset_refuted",
    "C45_superset_refuted",
    "C45_lists_refuted",
    "C45_empty_refuted"
   ],
   "note": "False; operator== is characterised exactly, is right on containers of numbers and group elements with equal names, and refuted elsewhere."
  },
  {
   "property": "C46",
   "status": "proved",
   "theorems": [
    "C46_public_key",
    "C46_secret_key",
    "C46_any_key",
    "C46_export",
    "C46_delete_code"
   ],
   "note": "All histories; by induction on the history."
  },
  {
   "property": "C47",
   "status": "partial",
   "theorems": [
    "C47_lookup_refuted",
    "C47_validate_refuted",
    "C47_delete_refuted",
    "C47_never_denies_partial",
    "C47_without_lookups_partial",
    "C47_exact_partial"
   ],
   "note": "False: a failed lookup, a name check or a delete makes checkSecretKey true. Never denies an existing key; exact without lookups."
  },
  {
   "property": "C48",
   "status": "proved",
   "theorems": [
    "C48_get",
    "C48_search"
   ],
   "note": "All histories of all commands, all users and queries; keys retrieved come from the last successful store under the identifier."
  },
  {
   "property": "C49",
   "status": "proved",
   "theorems": [
    "C49_search",
    "C49_askable"
   ],
   "note": "All histories and all queries whose flags are clean (every freshly parsed policy); sort orders are any permutation, the ranking any sorted permutation."
  },
  {
   "property": "C50",
   "status": "partial",
   "theorems": [
    "C50_deleted_refuted",
    "C50_no_effect",
    "C50_identifiers_partial"
   ],
   "note": "False: deletion changes no retrieval or search at all (C50_no_effect). The identifiers returned are proved right."
  },
  {
   "property": "C51",
   "status": "partial",
   "theorems": [
    "C51_users_refuted",
    "C51_wrap_refuted",
    "C51_prefixes_refuted",
    "C51_other_partial",
    "C51_fresh_partial"
   ],
   "note": "False between users, after 20 keys, and between prefixes. Only the key under prefix and count is affected."
  },
  {
   "property": "C52",
   "status": "partial",
   "theorems": [
    "C52_malformed_refuted",
    "C52_duplicate_refuted",
    "C52_other_partial",
    "C52_unused_partial"
   ],
   "note": "False: the old key is erased first. Other identifiers unaffected; nothing changes under an unused identifier."
  },
  {
   "property": "C53",
   "status": "proved",
   "theorems": [
    "C53_round_trip",
    "C53_empty",
    "C53_key_object"
   ],
   "note": "All plaintexts below 2^31-1 bytes, both encodings, bytes and key-object constructors, AEAD abstract (any keystream, MAC and IV policy). Empty plaintext without authenticated data only (C83)."
  },
  {
   "property": "C54",
   "status": "proved",
   "theorems": [
    "C54_handler",
    "C54_rejected",
    "C54_handle",
    "C54_object"
   ],
   "note": "Handler, string interface, handle and cipher object; every blob."
  },
  {
   "property": "C55",
   "status": "partial",
   "theorems": [
    "C55_stream",
    "C55_context_refuted"
   ],
   "note": "False through the context: finalize reports success for every tag. The stream object reports exactly when the tag is not a prefix of the right one."
  },
  {
   "property": "C56",
   "status": "proved",
   "theorems": [
    "C56_encrypt",
    "C56_chunking",
    "C56_decrypt"
   ],
   "note": "All chunkings of totals below 4 GiB (see C82)."
  },
  {
   "property": "C57",
   "status": "partial",
   "theorems": [
    "C57_context",
    "C57_stream_no_output",
    "C57_stream_silent_refuted",
    "C57_associated_data",
    "C57_late_data"
   ],
   "note": "Context: proved for every history. Stream object: no output, but three of the four calls report success (refuted)."
  },
  {
   "property": "C58",
   "status": "partial",
   "theorems": [
    "C58_object",
    "C58_constructed",
    "C58_context_refuted"
   ],
   "note": "Key object: proved. Context: false, the exported blob has no key bytes and cannot be loaded."
  },
  {
   "property": "C59",
   "status": "partial",
   "theorems": [
    "C59_refuted",
    "C59_header_partial"
   ],
   "note": "False: only the headers are compared; proved exactly."
  },
  {
   "property": "C60",
   "status": "proved",
   "theorems": [
    "C60_hkdf_exact",
    "C60_length",
    "C60_prefix",
    "C60_salt"
   ],
   "note": "Exact output stream over an abstract HMAC of 32 bytes; lengths up to 2^31-1 blocks, the code has no 255-block limit."
  },
  {
   "property": "C61",
   "status": "proved",
   "theorems": [
    "C61_accepts",
    "C61_names",
    "C61_undefined",
    "C61_strings",
    "C61_identifiers"
   ],
   "note": "All identifiers and strings, with the exact table of scheme names."
  },
  {
   "property": "C62",
   "status": "proved",
   "theorems": [
    "C62_hashing_keeps_semantics",
    "C62_keyword_refuted",
    "C62_substring_refuted",
    "C62_colons_refuted",
    "C62_rejected_refuted",
    "C62_rejected_list_refuted"
   ],
   "note": "Proved for all accepted texts under the stated conditions; C62_keyword_refuted, C62_substring_refuted and C62_colons_refuted show each is needed; rejected texts are undefined behaviour."
  },
  {
   "property": "C63",
   "status": "partial",
   "theorems": [
    "C63_always_equal",
    "C63_list_equality_refuted"
   ],
   "note": "False: any non-empty list equals everything (C63_always_equal); comparing an empty one is undefined."
  },
  {
   "property": "C64",
   "status": "partial",
   "theorems": [
    "C64_copy_rows_refuted",
    "C64_copy_satisfaction_partial"
   ],
   "note": "Satisfaction preserved; row labels refuted for duplicated attributes."
  },
  {
   "property": "C65",
   "status": "proved",
   "theorems": [
    "C65_roundtrip",
    "C65_short",
    "C65_width_not_transmitted"
   ],
   "note": "All 32-bit values."
  },
  {
   "property": "C66",
   "status": "partial",
   "theorems": [
    "C66_plus_string_refuted",
    "C66_plus_string_partial"
   ],
   "note": "False: refuted; exact condition given."
  },
  {
   "property": "C67",
   "status": "partial",
   "theorems": [
    "C67_reuse_refuted",
    "C67_reuse_partial"
   ],
   "note": "False: refuted; partial theorem gives the condition under which it holds."
  },
  {
   "property": "C68",
   "status": "partial",
   "theorems": [
    "C68_release_build_refuted",
    "C68_debug_build_partial"
   ],
   "note": "False: every policy with a gate is undefined in a release build."
  },
  {
   "property": "C69",
   "status": "partial",
   "theorems": [
    "C69_bytes_length",
    "C69_default_256",
    "C69_default_refuted",
    "C69_too_long"
   ],
   "note": "With hash length 32 exact; with the default argument 256 only the first 32 bytes of the key come from the hash (C69_default_refuted)."
  },
  {
   "property": "C70",
   "status": "partial",
   "theorems": [
    "C70_short",
    "C70_length",
    "C70_injective_refuted"
   ],
   "note": "Length bound proved; injectivity fails for every hash (C70_injective_refuted)."
  },
  {
   "property": "C71",
   "status": "partial",
   "theorems": [
    "C71_reexport_refuted",
    "C71_reexport_partial"
   ],
   "note": "False: a component whose bytes are a policy starting with z is stored as null. Without such a component it holds."
  },
  {
   "property": "C72",
   "status": "partial",
   "theorems": [
    "C72_empty_refuted",
    "C72_width_refuted",
    "C72_empty_name_refuted",
    "C72_policy_refuted",
    "C72_long_uid_refuted",
    "C72_no_components_refuted"
   ],
   "note": "False in the listed corner cases; the positive statement is C40/C41."
  },
  {
   "property": "C73",
   "status": "partial",
   "theorems": [
    "C73_never_wiped",
    "C73_wipe_refuted"
   ],
   "note": "False: key objects are never wiped (zeroize is a stub)."
  },
  {
   "property": "C74",
   "status": "partial",
   "theorems": [
    "C74_other_scheme_refuted",
    "C74_no_user_refuted"
   ],
   "note": "False: two witnesses; the no-user case is proved for all states."
  },
  {
   "property": "C75",
   "status": "proved",
   "theorems": [
    "C75_store_exported",
    "C75_kept"
   ],
   "note": "All histories and all exported CP/KP keys with portable components."
  },
  {
   "property": "C76",
   "status": "partial",
   "theorems": [
    "C76_reuse_refuted",
    "C76_default"
   ],
   "note": "False for every non-empty associated data; proved for the default associated data."
  },
  {
   "property": "C77",
   "status": "partial",
   "theorems": [
    "C77_short_tag_refuted"
   ],
   "note": "False: one byte of the tag is enough, for every ciphertext."
  },
  {
   "property": "C78",
   "status": "partial",
   "theorems": [
    "C78_short_key_refuted",
    "C78_no_key_refuted",
    "C78_long_key",
    "C78_handle"
   ],
   "note": "False for SymKeyEncHandler with 16-byte keys; the handle class checks for 32."
  },
  {
   "property": "C79",
   "status": "partial",
   "theorems": [
    "C79_second_init_refuted",
    "C79_encrypt"
   ],
   "note": "False for decryptInit (ignored, reports success); proved for encryptInit."
  },
  {
   "property": "C80",
   "status": "partial",
   "theorems": [
    "C80_handle_partial",
    "C80_empty_refuted"
   ],
   "note": "Proved for non-empty plaintexts; the empty one makes decrypt throw."
  },
  {
   "property": "C81",
   "status": "partial",
   "theorems": [
    "C81_empty_blob_refuted"
   ],
   "note": "False: the empty blob is accepted in every state and the key it stores makes encryption undefined."
  },
  {
   "property": "C82",
   "status": "partial",
   "theorems": [
    "C82_long_stream_refuted"
   ],
   "note": "False for every stream of 4 GiB or more."
  },
  {
   "property": "C83",
   "status": "partial",
   "theorems": [
    "C83_empty_aad_refuted"
   ],
   "note": "False for authenticated data of 1 to 15 bytes."
  },
  {
   "property": "C84",
   "status": "partial",
   "theorems": [
    "C84_no_tag_refuted"
   ],
   "note": "False: without an update no tag is written and success is reported. With updates see C56 and C86."
  },
  {
   "property": "C85",
   "status": "proved",
   "theorems": [
    "C85_other_data",
    "C85_carried"
   ],
   "note": "All handlers with the same key and encoding; non-empty plaintexts."
  },
  {
   "property": "C86",
   "status": "proved",
   "theorems": [
    "C86_context_round_trip"
   ],
   "note": "Every context state; associated data is the default, as the context always uses it."
  },
  {
   "property": "C87",
   "status": "proved",
   "theorems": [
    "C87_encryption",
    "C87_decryption"
   ],
   "note": "Every interleaving that does not restart the session in question."
  },
  {
   "property": "C88",
   "status": "proved",
   "theorems": [
    "C88_key_history",
    "C88_used",
    "C88_delete_code"
   ],
   "note": "All histories; by induction."
  },
  {
   "property": "C89",
   "status": "partial",
   "theorems": [
    "C89_no_overwrite",
    "C89_probe_refuted"
   ],
   "note": "Never overwrites: proved. False that a free identifier is always usable: a failed lookup reserves it."
  },
  {
   "property": "C90",
   "status": "proved",
   "theorems": [
    "C90_parameters"
   ],
   "note": "For both schemes and every store."
  },
  {
   "property": "C91",
   "status": "partial",
   "theorems": [
    "C91_keys_survive",
    "C91_master_key_safe_refuted"
   ],
   "note": "Refuted for a user key generated under the name of the master key: the master key is replaced with code 0."
  },
  {
   "property": "C92",
   "status": "proved",
   "theorems": [
    "C92_missing_reported",
    "C92_absent_reported"
   ],
   "note": "For both schemes, every context state and ciphertext."
  },
  {
   "property": "C93",
   "status": "partial",
   "theorems": [
    "C93_hostile_ciphertext_refuted",
    "C93_answers_partial",
    "C93_exact"
   ],
   "note": "Refuted for three kinds of ciphertext; C93_exact says precisely which ciphertexts a context with an issued key does not answer, and C93_answers_partial what is left unchanged when it does. Missing for the claim as stated: ciphertexts with an unparsable policy (CP), with another type under attributes or under the first C_x reached (KP), and bodies whose length modulo 2^32 is zero or above 2^31-32."
  },
  {
   "property": "C94",
   "status": "partial",
   "theorems": [
    "C94_failed_decryption_refuted"
   ],
   "note": "Refuted when a component is missing: the failed lookup inserts a null entry and export dereferences it. Holds when decryption is refused because the policy is not satisfied (C36_refused)."
  },
  {
   "property": "C95",
   "status": "proved",
   "theorems": [
    "C95_delivery"
   ],
   "note": "Serialized keys and ciphertexts below 4 GiB, names below 2 GiB; the user key must not be named as a master key in between (C96_misused_key_refuted)."
  },
  {
   "property": "C96",
   "status": "partial",
   "theorems": [
    "C96_parameters",
    "C96_user_keys",
    "C96_misused_key_refuted"
   ],
   "note": "Proved for parameters and user keys; refuted when a user key is named as the master key in generateDecryptionKey."
  },
  {
   "property": "C97",
   "status": "partial",
   "theorems": [
    "C97_last_write",
    "C97_delete_code_refuted"
   ],
   "note": "Last-write part proved for all histories; the return code of deleteComponent is 0 after a failed lookup of the same name (refuted)."
  },
  {
   "property": "C98",
   "status": "proved",
   "theorems": [
    "C98_active_users"
   ],
   "note": "All histories."
  },
  {
   "property": "C99",
   "status": "proved",
   "theorems": [
    "C99_text_identifies",
    "C99_text"
   ],
   "note": "All texts."
  },
  {
   "property": "C100",
   "status": "proved",
   "theorems": [
    "C100_cp_collusion",
    "C100_kp_collusion",
    "C100_cp_member",
    "C100_kp_member"
   ],
   "note": "Against fixed combinations of pairings (generic-group style): all coalitions, CP and KP, and the converse. Not a computational or adaptive security proof; the key derivation and the masking are not part of it."
  },
  {
   "property": "C101",
   "status": "proved",
   "theorems": [
    "C101_found"
   ],
   "note": "Both schemes. Texts whose names survive printing and have no colliding short forms; sizes below the 32-bit limits, as in C95."
  },
  {
   "property": "C102",
   "status": "partial",
   "theorems": [
    "C102_serial_partial",
    "C102_no_deadlock",
    "C102_no_race",
    "C102_replace_race_refuted",
    "C102_register_race_refuted",
    "C102_count_race_refuted",
    "C102_search_abort_refuted",
    "C102_duplicate_refuted"
   ],
   "note": "Serialisability, absence of races and of deadlock proved for every schedule of storeWithKeyPrefixCommand, getKeyCommand, searchKeyCommand and deleteKeyCommand. Refuted for storeWithKeyIDCommand, setPassphrase, getActiveUsers and getUserKeyCount, which take no lock: they race, can abort a search, and can store two keys for one input. Accesses are taken as atomic in the serialisability part; races are stated separately."
  },
  {
   "property": "C103",
   "status": "partial",
   "theorems": [
    "C103_guard",
    "C103_prepared_partial",
    "C103_failed_start_refuted",
    "C103_thread_cleanup_refuted",
    "C103_shutdown_starts_refuted",
    "C103_again"
   ],
   "note": "The guard is proved for every history and every answer of RELIC. Ready threads are proved when RELIC always starts (partial). Refuted: a failed start goes unnoticed and the next pairing is undefined behaviour; the OpenABEStateContext destructor never releases the thread's RELIC state, and shutdownThread can even start it."
  },
  {
   "property": "C104",
   "status": "partial",
   "theorems": [
    "C104_only_under_pad",
    "C104_long_plaintext_refuted"
   ],
   "note": "Proved for plaintexts below 2^31-32 bytes; that the pad does not repeat is refuted for plaintexts beyond 8192 bytes, where bytes at that distance share a pad byte."
  },
  {
   "property": "C105",
   "status": "partial",
   "theorems": [
    "C105_altered_refuted"
   ],
   "note": "Refuted for every ciphertext that decrypts: encrypt/decrypt of the ABE contexts have no authentication; any header and any carrier of the same length are accepted and bit flips carry over to the plaintext."
  },
  {
   "property": "C106",
   "status": "proved",
   "theorems": [
    "C106_own_choices",
    "C106_never_back",
    "C106_encrypt",
    "C106_keygen",
    "C106_two_ciphertexts"
   ],
   "note": "The random source is a sequence; each draw takes the next position. Says nothing about the quality of the source. A failing shareSecret ends the process, so its unfinished draws are not followed."
  },
  {
   "property": "C107",
   "status": "proved",
   "theorems": [
    "C107_round_trip",
    "C107_by_bytes",
    "C107_refused",
    "C107_diffie_hellman"
   ],
   "note": "The repository compiles no subclass of OpenABEContextPKE; the encapsulation is a parameter. A key of 16 bytes would be read past its end by AES-256, so 32 bytes are required."
  },
  {
   "property": "C108",
   "status": "proved",
   "theorems": [
    "C108_authentic",
    "C108_untouched",
    "C108_outcome",
    "C108_altered"
   ],
   "note": "AES-GCM is a parameter; unforgeability is not claimed, only that acceptance means a fitting tag."
  },
  {
   "property": "C109",
   "status": "partial",
   "theorems": [
    "C109_load",
    "C109_transport",
    "C109_no_pairing",
    "C109_no_pairing_refuted"
   ],
   "note": "Crash freedom is refuted: the class dereferences m_Pairing_, which nothing but the subclass creates (C109_no_pairing_refuted, for every blob with a header of the scheme). The rest holds when the pairing exists. Crashes of the deserializer itself are those of C42."
  },
  {
   "property": "C110",
   "status": "proved",
   "theorems": [
    "C110_programs",
    "C110_any_text",
    "C110_same_result",
    "C110_own_tree"
   ],
   "note": "Objects owned by std::unique_ptr and locals are released by the language and not recorded. Nodes are allocated children first in the model."
  },
  {
   "property": "C111",
   "status": "partial",
   "theorems": [
    "C111_never_freed_partial",
    "C111_cost_partial",
    "C111_destroy_partial",
    "C111_lists_freed_partial",
    "C111_leaf_freed_partial",
    "C111_refuted",
    "C111_word_refuted"
   ],
   "note": "Refuted: ~OpenABETreeNode calls deRef as often as the reference count says, and deRef deletes only when the count was already 0, so children are never deleted (C111_refuted). A word containing \"expint\" is not deleted by the scanner (C111_word_refuted). The partial theorems say exactly what stays."
  },
  {
   "property": "C112",
   "status": "proved",
   "theorems": [
    "C112_programs",
    "C112_values",
    "C112_pointers",
    "C112_own_components"
   ],
   "note": "Component values are not changed through the pointers in the model."
  },
  {
   "property": "C113",
   "status": "partial",
   "theorems": [
    "C113_destroy",
    "C113_never_freed_partial",
    "C113_tidy_partial",
    "C113_replaced_refuted",
    "C113_erased_refuted"
   ],
   "note": "Refuted: setComponent and deleteComponent drop the pointer without deleting the object (C113_replaced_refuted, C113_erased_refuted). C113_tidy_partial: released completely if no component is replaced or erased."
  },
  {
   "property": "C114",
   "status": "partial",
   "theorems": [
    "C114_copy_refuted",
    "C114_assign_refuted",
    "C114_nothing_destroyed_partial"
   ],
   "note": "Refuted: the implicit copy constructor and assignment copy the pointers, the destructor deletes them. The repository itself does not copy containers."
  },
  {
   "property": "C115",
   "status": "partial",
   "theorems": [
    "C115_expressions",
    "C115_programs",
    "C115_constants_refuted",
    "C115_assignment_refuted",
    "C115_random"
   ],
   "note": "C115_expressions and C115_programs for all expressions with at least one operand that has an order. Refuted without: adding two constants is undefined, multInverse of a constant does nothing (C115_constants_refuted); assigning a constant takes the order away (C115_assignment_refuted). setRandom(ZP&) does nothing if the argument has an order (C115_random)."
  },
  {
   "property": "C116",
   "status": "partial",
   "theorems": [
    "C116_order",
    "C116_equality",
    "C116_expressions",
    "C116_shift",
    "C116_shift_refuted",
    "C116_text_refuted",
    "C116_bytes"
   ],
   "note": "Refuted for shifts (C116_shift_refuted) and the constructor from text (C116_text_refuted): results are not reduced, so equal elements compare different. C116_shift says exactly when."
  },
  {
   "property": "C117",
   "status": "partial",
   "theorems": [
    "C117_expressions_partial",
    "C117_target_expressions",
    "C117_target_quotient",
    "C117_scalars",
    "C117_minus",
    "C117_minus_refuted"
   ],
   "note": "Refuted: operator- of G1 and G2 returns the opposite of the right operand (C117_minus_refuted; C117_minus: right iff the left operand is neutral). All else holds."
  },
  {
   "property": "C118",
   "status": "partial",
   "theorems": [
    "C118_same_setting",
    "C118_changed_setting",
    "C118_settings",
    "C118_refuted"
   ],
   "note": "C118_changed_setting: with a point of G1 or G2 in the container the process exits, anything else is read. So the full claim is false; the encodings of RELIC are abstract (codec_ok). C118_refuted exhibits it: a container written with one setting, read back with it, ends the process with the other."
  },
  {
   "property": "C119",
   "status": "partial",
   "theorems": [
    "C119_size",
    "C119_refuted"
   ],
   "note": "Refuted for elements of 256 bytes and more, such as GT on every supported curve; C119_size is exact."
  },
  {
   "property": "C120",
   "status": "partial",
   "theorems": [
    "C120_built",
    "C120_added",
    "C120_empty",
    "C120_bad_number_refuted",
    "C120_both_refuted"
   ],
   "note": "Holds for well-formed attributes that do not use a name both plain and with a number (C120_built). Refuted: C120_bad_number_refuted (null dereference), C120_both_refuted."
  },
  {
   "property": "C121",
   "status": "partial",
   "theorems": [
    "C121_built_travels",
    "C121_unchecked_refuted",
    "C121_lost_refuted",
    "C121_copy",
    "C121_copy_refuted"
   ],
   "note": "Holds for well-formed compatible attributes (C121_built_travels) and for copies of lists (C121_copy). Refuted: C121_unchecked_refuted (\"guest|admin\" grants admin after a round trip), C121_lost_refuted, C121_copy_refuted (policies cannot be copied)."
  },
  {
   "property": "C122",
   "status": "proved",
   "theorems": [
    "C122_pieces",
    "C122_no_reuse",
    "C122_handle_texts"
   ],
   "note": "The random source is asked not to repeat within the draws of the program (C122_pieces, C122_no_reuse); nothing is assumed about the cipher."
  },
  {
   "property": "C123",
   "status": "proved",
   "theorems": [
    "C123_raw",
    "C123_exported",
    "C123_same"
   ],
   "note": "C123_raw and C123_same for the raw key, C123_exported for the derived one."
  },
  {
   "property": "C124",
   "status": "proved",
   "theorems": [
    "C124_as_ideal"
   ],
   "note": "The calls allowed are listed in NetworkSpec.allowed and NetworkProofs.permitted: texts readable, names below 2 GiB, what travels below 4 GiB, master keys stay where they are, a key of another authority is tried on bytes only (the ciphertext object may be left changed). Opening with a key of another authority whose policy holds is not given an answer."
  },
  {
   "property": "C125",
   "status": "partial",
   "theorems": [
    "C125_own_text",
    "C125_others",
    "C125_forgotten_refuted",
    "C125_nameless",
    "C125_answered_refuted"
   ],
   "note": "Holds for all declared codes but 21, 58 and 100, which have no case in the switch (C125_nameless, C125_forgotten_refuted); setAddAuthData without data answers one of them (C125_answered_refuted)."
  },
  {
   "property": "C126",
   "status": "proved",
   "theorems": [
    "C126_which",
    "C126_keys"
   ],
   "note": "For readable keys of setup; user keys and ciphertexts travel by C124."
  },
  {
   "property": "C127",
   "status": "partial",
   "theorems": [
    "C127_own_blocks",
    "C127_zeroize",
    "C127_left_refuted",
    "C127_leak_opens_refuted",
    "C127_shrunk_refuted",
    "C127_handle_refuted",
    "C127_object_refuted",
    "C127_same_answer",
    "C127_rejected_refuted"
   ],
   "note": "Proved: mask_K and the data of the symmetric key object hold nothing when freed, whatever the growth policy, and the text produced is that of the model without memory. False: the serialized session element (freed, and again in a block that is never freed), its digest, a copy of the key and the pad are left behind by every encrypt and decrypt (C127_left_refuted; the leaked digest alone opens the ciphertext, C127_leak_opens_refuted); a byte string that was longer before keeps its tail (C127_shrunk_refuted); handle and AuthEnc objects leave the key (C127_handle_refuted, C127_object_refuted); a rejected ciphertext leaves its decryption (C127_rejected_refuted). Compiler temporaries, registers, OpenSSL and RELIC memory are not modelled; a stack array stays as it was until overwritten."
  },
  {
   "property": "C128",
   "status": "partial",
   "theorems": [
    "C128_leak_refuted"
   ],
   "note": "False: exactly two blocks are lost by each encrypt and decrypt: the digest of 32 bytes that GT::hashToBytes releases, and the array with the serialized session element that GT::getBytes makes and GT::serialize does not free."
  },
  {
   "property": "C129",
   "status": "partial",
   "theorems": [
    "C129_derive",
    "C129_stream",
    "C129_encrypt",
    "C129_decrypt",
    "C129_calls_refuted",
    "C129_need",
    "C129_room_refuted",
    "C129_fits"
   ],
   "note": "False: the array in hashFromBytes has the length of the message rounded up to 32, plus one byte (C129_need); C129_fits gives the messages that fit a bound. C129_encrypt, C129_decrypt, C129_derive and C129_stream state the need for the calls themselves, C129_calls_refuted the failure of encrypt in both schemes."
  },
  {
   "property": "C130",
   "status": "proved",
   "theorems": [
    "C130_policy",
    "C130_attributes",
    "C130_reached"
   ],
   "note": "C130_reached shows both bounds are met with equality."
  },
  {
   "property": "C131",
   "status": "proved",
   "theorems": [
    "C131_ciphertext",
    "C131_same_shape",
    "C131_length_shown",
    "C131_key",
    "C131_bytes",
    "C131_key_bytes"
   ],
   "note": "C131_bytes and C131_key_bytes ask that the elements in the object are written with the usual number of bytes (regular); the point at infinity is written with one byte by RELIC. C131_length_shown: the message length is in the open."
  },
  {
   "property": "C132",
   "status": "proved",
   "theorems": [
    "C132_parts",
    "C132_bytes"
   ],
   "note": "C132_parts asks that shortened labels do not collide (C70); without this there are at most as many parts. C132_bytes is for ciphertexts under a policy."
  },
  {
   "property": "C133",
   "status": "proved",
   "theorems": [
    "C133_one_thread",
    "C133_together",
    "C133_found"
   ],
   "note": "C133_one_thread ties the access-level programs to the functions of Scheme.v (also for the calls that write). The ciphertext and symmetric key belong to the thread; RELIC's generator is per thread."
  },
  {
   "property": "C134",
   "status": "partial",
   "theorems": [
    "C134_missing_refuted",
    "C134_export_refuted",
    "C134_writer_refuted",
    "C134_params_refuted"
   ],
   "note": "Refuted: see the four theorems. C134_params_refuted needs no race: it happens even if every access is atomic."
  },
  {
   "property": "C135",
   "status": "proved",
   "theorems": [
    "C135_same_meaning",
    "C135_logic",
    "C135_connectives"
   ],
   "note": "`hears` is a whole session (parameters, key, encrypt, decrypt) in the model of the contexts; the texts are any that the grammar of PolicySyntax.v allows."
  },
  {
   "property": "C136",
   "status": "partial",
   "theorems": [
    "C136_append_partial",
    "C136_orderly_partial",
    "C136_more_refuted",
    "C136_order_refuted"
   ],
   "note": "Refuted by the list `a=1#4|a`, which does not hold the attribute a although `a` and `a|a=1#4` do. C136_append_partial and C136_orderly_partial give the cases in which it holds."
  },
  {
   "property": "C137",
   "status": "proved",
   "theorems": [
    "C137_codes",
    "C137_meaning"
   ],
   "note": "Undefined behaviour and exit remain possible on tampered keys and ciphertexts (see C93); the theorem says what is answered when the call answers. The codes are OpenABE_ERROR values of include/abe/zerror.h."
  },
  {
   "property": "C138",
   "status": "partial",
   "theorems": [
    "C138_load_partial",
    "C138_load_refuted"
   ],
   "note": "C138_load_partial is everything but the code; C138_load_refuted gives bytes that make OpenABE_ERROR 8 or 100 or std::out_of_range escape, and bytes that end the process."
  },
  {
   "property": "C139",
   "status": "partial",
   "theorems": [
    "C139_exact",
    "C139_bound_partial",
    "C139_refuted"
   ],
   "note": "Refuted: a chain of ANDs as deep as the stack is accepted and can then neither be printed nor copied. C139_exact gives the exact need (the height of the tree), C139_bound_partial a bound in the length of the text. How many bytes a call takes is not modelled. Destroying a parsed policy does not recurse below the root (C111)."
  },
  {
   "property": "C140",
   "status": "partial",
   "theorems": [
    "C140_enough_partial",
    "C140_need",
    "C140_refuted"
   ],
   "note": "Refuted: multi_pairing copies its operands to variable-length arrays on the stack, and a conjunction uses all its leaves. C140_enough_partial gives a bound in the length of the policy text read (from the ciphertext in CP, from the key in KP); C140_need the exact need for conjunctions. The rest of the stack use (RELIC, the parser) is not modelled here."
  },
  {
   "property": "C141",
   "status": "proved",
   "theorems": [
    "C141_tokens",
    "C141_policy",
    "C141_list",
    "C141_overflow",
    "C141_overflows"
   ],
   "note": "C141_tokens is the scanner for all buffer and block sizes, C141_policy and C141_list the two parsing functions with the sizes of the library. C141_overflow shows that the bound on names is sharp: from 2^30 - 1 characters on the size of the buffer overflows an int (undefined). Outside the model: a failing allocation, and the NUL flex puts behind the matched text and takes back."
  },
  {
   "property": "C142",
   "status": "partial",
   "theorems": [
    "C142_element",
    "C142_hex",
    "C142_negative",
    "C142_sign_refuted",
    "C142_integer",
    "C142_list",
    "C142_built_refuted"
   ],
   "note": "C142_element, C142_integer, C142_hex and C142_list hold for all values the library makes itself; C142_built_refuted and C142_sign_refuted show where the text is ambiguous. bn_write_str, bn_write_bin and bn_read_str are taken as the conversions their names say."
  },
  {
   "property": "C143",
   "status": "partial",
   "theorems": [
    "C143_transitions",
    "C143_buffered_partial",
    "C143_word",
    "C143_scanner_refuted",
    "C143_parser",
    "C143_loops"
   ],
   "note": "Linear for the parser and for all loops over the policy, and for the scanner when names have bounded length; refuted for the scanner in general (C143_scanner_refuted, with the exact growth in C143_word). Missing: costs inside a round."
  },
  {
   "property": "C144",
   "status": "proved",
   "theorems": [
    "C144_safe",
    "C144_alive",
    "C144_kept",
    "C144_nothing_left"
   ],
   "note": "Full statement for sequential programs."
  },
  {
   "property": "C145",
   "status": "proved",
   "theorems": [
    "C145_safe",
    "C145_elsewhere",
    "C145_reaches",
    "C145_replaced"
   ],
   "note": "For all programs without copies of containers."
  },
  {
   "property": "C146",
   "status": "proved",
   "theorems": [
    "C146_legal",
    "C146_nothing_left",
    "C146_same",
    "C146_two",
    "C146_idle",
    "C146_stream"
   ],
   "note": "For all programs. Failing OpenSSL calls and a failing random generator are not modelled."
  },
  {
   "property": "C147",
   "status": "partial",
   "theorems": [
    "C147_legal",
    "C147_exact",
    "C147_third_part",
    "C147_never_succeeds",
    "C147_success_partial",
    "C147_refuted"
   ],
   "note": "Refuted: decrypt loses the cipher context when the tag does not have 16 bytes. No other call loses an object (C147_exact), and no object is used or released wrongly (C147_legal)."
  },
  {
   "property": "C148",
   "status": "partial",
   "theorems": [
    "C148_same",
    "C148_legal",
    "C148_exact",
    "C148_plain_partial",
    "C148_refuted",
    "C148_secret_refuted",
    "C148_ciphertext_refuted",
    "C148_key_refuted"
   ],
   "note": "Refuted: G1, G2 and GT serialize never free the array of getBytes. C148_exact gives exactly what is lost; no array is used wrongly (C148_legal), and exports without group elements lose nothing (C148_plain_partial)."
  }
 ]
}