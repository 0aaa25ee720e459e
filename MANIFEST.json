{
 "claims": [
  {
   "property": "C01",
   "status": "proved",
   "theorems": [
    "C01_history_refines_ordered_dictionary",
    "C01_history_observations",
    "C01_edit_outcome",
    "C01_every_tree_is_represented"
   ],
   "note": "Full refinement over all histories of structural edits."
  },
  {
   "property": "C02",
   "status": "proved",
   "theorems": [
    "C02_fetch_creates_exactly_the_path",
    "C02_fetch_frame",
    "C02_fetch_existing_path_changes_nothing",
    "C02_fetch_total",
    "C02_dotdot_creates_unnamed_entry_refuted"
   ],
   "note": "Ordinary component names; '..' behaviour refuted separately."
  },
  {
   "property": "C03",
   "status": "proved",
   "theorems": [
    "C03_schema_has_path_iff_fetch_existing",
    "C03_has_path_total",
    "C03_node_fetch_existing_any_spelling",
    "C03_leading_slash_schema_refuted",
    "C03_repeated_slash_node_refuted",
    "C03_empty_path_diverges_refuted",
    "C03_dotdot_refuted"
   ],
   "note": "Proved for ordinary components and, for Node, any spelling with extra slashes; the unrestricted claim is refuted by the _refuted theorems."
  },
  {
   "property": "C04",
   "status": "proved",
   "theorems": [
    "C04_split_join",
    "C04_rsplit_join",
    "C04_join_rsplit",
    "C04_split_on_char",
    "C04_join_rsplit_refuted",
    "C04_split_on_char_refuted"
   ],
   "note": "Proved under the stated side conditions; unrestricted join-after-rsplit refuted."
  },
  {
   "property": "C05",
   "status": "proved",
   "theorems": [
    "C05_path_leads_back",
    "C05_list_entry_refuted",
    "C05_slash_name_refuted"
   ],
   "note": "Proved for positions reached through objects with ordinary names; lists and '/'-names refuted."
  },
  {
   "property": "C06",
   "status": "proved",
   "theorems": [
    "C06_equals_characterised",
    "C06_equals_reflexive",
    "C06_equals_symmetric",
    "C06_equals_transitive",
    "C06_equals_slash_name_refuted"
   ],
   "note": "Proved for names without '/'; refuted for names with '/'."
  },
  {
   "property": "C07",
   "status": "proved",
   "theorems": [
    "C07_compatible_characterised",
    "C07_compatible_reflexive",
    "C07_compatible_in_bounds",
    "C07_compatible_transitive_when_covered",
    "C07_compatible_transitive_refuted",
    "C07_compatible_slash_name_refuted"
   ],
   "note": "Transitivity is false of the code (refuted) and proved when the middle tree covers the last."
  },
  {
   "property": "C08",
   "status": "proved",
   "theorems": [
    "C08_spanned_bytes_covers",
    "C08_spanned_bytes_tight",
    "C08_total_bytes_compact_is_sum",
    "C08_zero_elements_refuted"
   ],
   "note": ""
  },
  {
   "property": "C09",
   "status": "proved",
   "theorems": [
    "C09_compact_to_layout",
    "C09_compact_to_tiles",
    "C09_compact_to_stays_inside"
   ],
   "note": ""
  },
  {
   "property": "C10",
   "status": "proved",
   "theorems": [
    "C10_is_compact_iff_leaves_dense",
    "C10_offsets_ignored_refuted",
    "C10_sums_cancel_refuted"
   ],
   "note": "The unrestricted claim is refuted; proved as an equivalence for standard element size, n>=1, non-overlapping stride."
  },
  {
   "property": "C11",
   "status": "proved",
   "theorems": [
    "C11_schema_functions_agree",
    "C11_compact_to",
    "C11_compact_into_viewed_node_refuted"
   ],
   "note": "Source and destination distinct; the source may share memory with anything the destination does not own. Violated when the source is a view of the destination's own buffer (refuted)."
  },
  {
   "property": "C12",
   "status": "proved",
   "theorems": [
    "C12_serialize_round_trip",
    "C12_stream_round_trip",
    "C12_serialize_strided_refuted",
    "C12_serialize_overlap_refuted"
   ],
   "note": "serialize(vector) proved for dense leaves and for a single leaf; for strided leaves inside a container the claim is false (two refuted theorems). serialize(ofstream) proved for all layouts of standard element size."
  },
  {
   "property": "C13",
   "status": "proved",
   "theorems": [
    "C13_strided_copy",
    "C13_fast_path_is_loop"
   ],
   "note": ""
  },
  {
   "property": "C14",
   "status": "proved",
   "theorems": [
    "C14_set_deep_copy",
    "C14_self_set_refuted",
    "C14_set_from_view_refuted"
   ],
   "note": "Self-set and set from a view of the destination refuted."
  },
  {
   "property": "C15",
   "status": "proved",
   "theorems": [
    "C15_set_external_shares",
    "C15_owner_of_shared_buffer_refuted"
   ],
   "note": "Proved for destinations whose ownership mark is truthful (tidy); the untidy state reachable by set(Schema()) gives a double free (refuted)."
  },
  {
   "property": "C16",
   "status": "proved",
   "theorems": [
    "C16_set_array",
    "C16_set_vector",
    "C16_set_string",
    "C16_set_array_overrun_refuted",
    "C16_set_vector_longer_refuted",
    "C16_set_vector_strided_refuted",
    "C16_set_foreign_order_refuted",
    "C16_set_string_strided_refuted"
   ],
   "note": "Exact in all non-excepted cases; five counterexamples proved for the exceptions in the statement."
  },
  {
   "property": "C17",
   "status": "proved",
   "theorems": [
    "C17_update",
    "C17_update_brings",
    "C17_update_keeps",
    "C17_update_order",
    "C17_update_idempotent",
    "C17_update_list_from_object_refuted",
    "C17_update_empty_object_refuted",
    "C17_update_foreign_order_refuted"
   ],
   "note": "Exact result (vupdate) plus its meaning path by path, order, idempotence, memory effect and ownership. Exceptions proved."
  },
  {
   "property": "C18",
   "status": "proved",
   "theorems": [
    "C18_update_compatible",
    "C18_same_shape",
    "C18_leaf"
   ],
   "note": ""
  },
  {
   "property": "C19",
   "status": "proved",
   "theorems": [
    "C19_round_trip",
    "C19_same_order_is_identity",
    "C19_swap",
    "C19_shared_bytes_refuted"
   ],
   "note": "Exception proved for overlapping leaves."
  },
  {
   "property": "C20",
   "status": "proved",
   "theorems": [
    "C20_diff_decides",
    "C20_diff_defined",
    "C20_diff_self",
    "C20_diff_symmetric",
    "C20_equivalence",
    "C20_overflow_refuted",
    "C20_one_way_refuted",
    "C20_nan_refuted",
    "C20_byte_order_refuted",
    "C20_unterminated_refuted",
    "C20_unterminated_self_refuted",
    "C20_relaxint_refuted",
    "C20_relaxint",
    "C20_relaxint_sign_refuted"
   ],
   "note": "Verdict proved equivalent to an independent tree relation (floats by IEEE difference against eps); self comparison, symmetry, definedness; relaxint on first elements as numbers. Signed overflow, NaN, recorded byte order, unterminated strings, relaxint beyond first elements and across signs refuted. The info report is not modelled."
  },
  {
   "property": "C21",
   "status": "proved",
   "theorems": [
    "C21_diff_compatible_decides",
    "C21_order",
    "C21_tolerance_refuted"
   ],
   "note": "Verdict proved equivalent to containment; reflexive, transitive without floats; with a tolerance transitivity refuted."
  },
  {
   "property": "C22",
   "status": "proved",
   "theorems": [
    "C22_swap",
    "C22_swap_twice",
    "C22_move",
    "C22_swap_siblings_refuted",
    "C22_swap_siblings_remove_refuted",
    "C22_swap_parents_refuted",
    "C22_swap_dangling_refuted",
    "C22_swap_child_refuted",
    "C22_move_child_refuted"
   ],
   "note": "swap, swap twice and move proved on a heap of node and schema objects with their pointers; refuted: swap with a later sibling, stale parents of the children, swap or move with a descendant"
  },
  {
   "property": "C23",
   "status": "proved",
   "theorems": [
    "C23_is_contiguous",
    "C23_contiguous_bytes",
    "C23_contiguous_with",
    "C23_contiguous_with_implies",
    "C23_contiguous_after",
    "C23_contiguous_data_ptr",
    "C23_compact_is_contiguous",
    "C23_contiguous_with_forgets_refuted",
    "C23_no_elements_refuted"
   ],
   "note": "Proved as equivalences; contiguous_with(address) only when the first thing in the tree is a leaf with data (refuted otherwise); leaves with zero elements and a stride refuted."
  },
  {
   "property": "C24",
   "status": "proved",
   "theorems": [
    "C24_round_trip",
    "C24_text_is_json",
    "C24_equal_schema",
    "C24_child_named_dtype_refuted",
    "C24_quote_in_name_refuted",
    "C24_backslash_in_name_refuted",
    "C24_empty_leaf_refuted",
    "C24_negative_stride_refuted",
    "C24_large_number_refuted"
   ],
   "note": "round trip for every well-formed schema and every reader of the JSON grammar, any indentation; a concrete reader is given; refuted: child named dtype, quotes and escapes in names, empty leaves, negative fields, counts of 2^63 or more that become negative"
  },
  {
   "property": "C25",
   "status": "proved",
   "theorems": [
    "C25_unescape_escape",
    "C25_escape_is_json",
    "C25_unescape_reads_json",
    "C25_escape_injective",
    "C25_control_character_raw_refuted",
    "C25_unknown_escape_doubled_refuted"
   ],
   "note": "Unknown escapes and other control characters refuted."
  },
  {
   "property": "C26",
   "status": "proved",
   "theorems": [
    "C26_encode",
    "C26_text",
    "C26_round_trip",
    "C26_decode_overrun_refuted",
    "C26_length_truncated_refuted"
   ],
   "note": "For lengths below 2^31; decoding unpadded text overruns the advertised size (refuted)."
  },
  {
   "property": "C27",
   "status": "proved",
   "theorems": [
    "C27_name_of_id_of_name",
    "C27_names_distinct",
    "C27_unknown_name_is_empty",
    "C27_default_dtype",
    "C27_default_dtype_of_string_refuted",
    "C27_endian_names"
   ],
   "note": ""
  },
  {
   "property": "C28",
   "status": "proved",
   "theorems": [
    "C28_forward",
    "C28_range_for",
    "C28_backward",
    "C28_cursor",
    "C28_no_stale_access",
    "C28_name",
    "C28_peek_previous_refuted",
    "C28_to_back_skips_last_refuted",
    "C28_name_at_front_refuted"
   ],
   "note": "All interleavings of moves. peek_previous and to_back refuted."
  },
  {
   "property": "C29",
   "status": "proved",
   "theorems": [
    "C29_factor",
    "C29_factor_complete",
    "C29_factor_small"
   ],
   "note": ""
  },
  {
   "property": "C30",
   "status": "proved",
   "theorems": [
    "C30_strict_json_unchanged",
    "C30_loose_json_cleaned",
    "C30_idempotent",
    "C30_read",
    "C30_reader_exists",
    "C30_leading_string_refuted",
    "C30_final_word_refuted",
    "C30_final_backslash_refuted",
    "C30_quote_in_comment_refuted",
    "C30_comment_after_word_refuted"
   ],
   "note": "strict text unchanged and loose text cleaned, by induction on the JSON grammar; refuted: text starting with a quote, word at the end of the text, string ending in an escaped backslash, quote inside a comment, comment right behind a word"
  },
  {
   "property": "C31",
   "status": "proved",
   "theorems": [
    "C31_index",
    "C31_index_count",
    "C31_index_count_default_refuted",
    "C31_walk",
    "C31_cursor",
    "C31_group",
    "C31_zero_size_refuted",
    "C31_scattered_indices_refuted",
    "C31_single_one_refuted",
    "C31_generate_offsets",
    "C31_generated_groups_tile"
   ],
   "note": "Random access proved for all valid relations; the iterator for positive sizes and indices consecutive within groups; zero sizes, scattered indices and a single one refuted."
  },
  {
   "property": "C32",
   "status": "proved",
   "theorems": [
    "C32_compact_to",
    "C32_without_sizes",
    "C32_zero_size_refuted",
    "C32_single_group_refuted",
    "C32_two_arrays_refuted"
   ],
   "note": "Proved for at least two groups, positive sizes except the last, one data array; zero sizes (non-termination), a single group (values lost) and two arrays (overrun) refuted."
  },
  {
   "property": "C33",
   "status": "proved",
   "theorems": [
    "C33_affine",
    "C33_default_in_range",
    "C33_default_injective",
    "C33_default_onto",
    "C33_padded_injective",
    "C33_index_count_unchecked_refuted"
   ],
   "note": ""
  },
  {
   "property": "C34",
   "status": "proved",
   "theorems": [
    "C34_to_contiguous",
    "C34_to_interleaved",
    "C34_is_interleaved_sound",
    "C34_verify",
    "C34_list_layout_refuted",
    "C34_slash_name_refuted",
    "C34_is_interleaved_overlap_refuted",
    "C34_verify_zero_first_refuted"
   ],
   "note": "Proved for objects with plain component names (any types, counts, strides); lists and names with '/' refuted for layout; is_interleaved characterised, its blindness to overlap and verify's to leading zero counts refuted."
  },
  {
   "property": "C35",
   "status": "proved",
   "theorems": [
    "C35_gilbert2d",
    "C35_gilbert3d",
    "C35_empty_block_refuted",
    "C35_flat_block_refuted"
   ],
   "note": "Proved for all sizes: every cell once, consecutive cells touch, at most one diagonal step in 2D; empty blocks (0x0, and 3D blocks with a 0 side) recurse forever (refuted)."
  },
  {
   "property": "C36",
   "status": "proved",
   "theorems": [
    "C36_save_load",
    "C36_save_mmap",
    "C36_mmap_no_data_refuted",
    "C36_child_named_dtype_refuted",
    "C36_quote_in_name_refuted",
    "C36_mmap_large_refuted",
    "C36_crash",
    "C36_crash_elsewhere",
    "C36_crash_mix_refuted",
    "C36_crash_zeros_refuted"
   ],
   "note": "Save writes compact data plus schema JSON; load and mmap give the saved values back with 'default' byte order spelled out. rapidjson is a hypothesis (reads_json), met by a concrete reader. Files are a name->bytes map; short reads, missing files and writing through a mapping are simplified as stated in Save.v. Crash points are those of SaveCrash.v: files grow from the front, in the order of the program."
  },
  {
   "property": "C37",
   "status": "proved",
   "theorems": [
    "C37_registry",
    "C37_ids_distinct",
    "C37_registration_persists"
   ],
   "note": "Over all histories of registrations and hook changes."
  },
  {
   "property": "C38",
   "status": "proved",
   "theorems": [
    "C38_conversion",
    "C38_own_type",
    "C38_min",
    "C38_max",
    "C38_sum",
    "C38_count",
    "C38_float_min",
    "C38_float_max",
    "C38_fill",
    "C38_set_element",
    "C38_set_list",
    "C38_set_values",
    "C38_set_array",
    "C38_frame",
    "C38_float_min_infinity_refuted",
    "C38_float_min_nan_refuted",
    "C38_sum_overflow_refuted",
    "C38_set_values_overrun_refuted",
    "C38_set_shorter_array_refuted"
   ],
   "note": "Integer min/max/sum/count for arrays and accessors (with conversion), float min/max, fill, set of one element, of a list, of values within the array and of another array; byte frame. Not modelled: mean, float sums, int/float conversions."
  },
  {
   "property": "C39",
   "status": "proved",
   "theorems": [
    "C39_set_schema",
    "C39_negative_stride_refuted",
    "C39_no_elements_refuted",
    "C39_empty_schema_leak_refuted"
   ],
   "note": "Proved for leaves with non-negative offset and stride; negative strides, a strided root leaf without elements and the empty schema refuted."
  },
  {
   "property": "C40",
   "status": "proved",
   "theorems": [
    "C40_history",
    "C40_step",
    "C40_parents",
    "C40_no_leak",
    "C40_delete",
    "C40_reset",
    "C40_remove",
    "C40_fetch",
    "C40_append",
    "C40_fetch_content",
    "C40_append_content",
    "C40_add_child_refuted",
    "C40_remove_range_refuted"
   ],
   "note": "invariant over all histories of structural calls by induction on the call list; parents right for histories without swap and move; refuted: add_child on a list with children, remove past the end"
  },
  {
   "property": "C41",
   "status": "proved",
   "theorems": [
    "C41_programs",
    "C41_swapped_out_child_refuted"
   ],
   "note": "Simulation between memory and values by induction on the program, with a separation invariant; arguments of a call come from another variable, names are plain, schemas usable (non-overlapping leaves), updates of an object into a non-empty list excluded (C17 covers that). Refuted: swapping a child out of a node whose root owns the buffer."
  },
  {
   "property": "C42",
   "status": "proved",
   "theorems": [
    "C42_round_trip",
    "C42_text",
    "C42_short_data_refuted",
    "C42_no_padding_refuted",
    "C42_wrong_kind_refuted",
    "C42_child_named_dtype_refuted"
   ],
   "note": "Round trip of the base64 JSON protocol for every readable node with JSON-able names and at most 1610612733 bytes, any white space, any reader right on strict JSON; the text is characterised as strict JSON. Refutations: data shorter than the schema reads past the decode buffer, unpadded base64 writes past it, wrong kinds of members are undefined, a child called dtype."
  },
  {
   "property": "C43",
   "status": "proved",
   "theorems": [
    "C43_round_trip",
    "C43_float32",
    "C43_whole_float64",
    "C43_float64",
    "C43_exact_floats",
    "C43_backslash_refuted",
    "C43_last_backslash_refuted",
    "C43_infinity_refuted",
    "C43_precision_refuted",
    "C43_largest_refuted",
    "C43_nul_refuted",
    "C43_strided_string_refuted",
    "C43_stride_zero_refuted",
    "C43_quote_in_name_refuted",
    "C43_child_named_dtype_refuted",
    "C43_bare_type_refuted"
   ],
   "note": "Round trip of the conduit_json protocol for every readable node with JSON-able names, contiguous backslash-free NUL-terminated strings and floats that survive their own text, any white space, any reader right on strict JSON. With models of printf %.15g, rapidjson's number reader and strtod: every finite float32 and every float64 that is a whole number of at most 15 digits survives (so such nodes come back exactly); a float64 between 10^-280 and 10^305 comes back within 6 parts in 10^15, prints the same text and is stable from then on. Refutations: backslash sequences are unescaped twice, trailing backslash, lone inf/nan, 15-digit precision, largest double becomes infinity, bytes after a NUL, strided strings, zero stride, quote in a name, child called dtype, bare type name gives a leaf without memory."
  },
  {
   "property": "C44",
   "status": "proved",
   "theorems": [
    "C44_read",
    "C44_text",
    "C44_round_trip",
    "C44_floats",
    "C44_number_list_refuted",
    "C44_string_list_refuted",
    "C44_no_elements_refuted",
    "C44_big_in_array_refuted",
    "C44_last_backslash_refuted",
    "C44_root_string_refuted",
    "C44_infinity_refuted",
    "C44_unstable_refuted",
    "C44_bool_refuted"
   ],
   "note": "C44_read: any loose JSON object or array is read as the node value that the relation reads assigns. C44_text: the text printed is strict JSON for the node value. C44_round_trip: what comes back (relation kept). C44_floats: every finite float32 and every float64 that is zero or between 10^-280 and 10^305 can be written and comes back within 6 parts in 10^15. Refutations: lists of numbers or of numeric strings become one array, empty arrays become lists, big numbers in an array are undefined behaviour, strings that end in a backslash damage what follows, a root string is read as empty, infinity becomes a string, reading and writing is not stable for nested single numbers and booleans."
  },
  {
   "property": "C45",
   "status": "proved",
   "theorems": [
    "C45_full_to_by_element",
    "C45_by_material_to_by_element",
    "C45_by_element_to_full",
    "C45_by_material_to_full",
    "C45_full_to_by_material",
    "C45_by_element_to_by_material",
    "C45_field_in_step",
    "C45_round_trip",
    "C45_gap_refuted",
    "C45_shorter_refuted",
    "C45_lost_material_refuted",
    "C45_material_dominant_refuted",
    "C45_no_offsets_refuted",
    "C45_unknown_id_refuted",
    "C45_repeated_refuted"
   ],
   "note": "All six conversions and their field versions keep the value of every material in every element, for all proper material sets; exceptions refuted."
  },
  {
   "property": "C46",
   "status": "proved",
   "theorems": [
    "C46_one_array",
    "C46_array_per_material",
    "C46_readable",
    "C46_type",
    "C46_endless_refuted",
    "C46_void_refuted",
    "C46_unsigned_refuted",
    "C46_narrow_refuted",
    "C46_scattered_refuted",
    "C46_value_type_refuted"
   ],
   "note": "Theorems for one array and for an array per material (with and without element ids, with and without a field), the choice of the integer type, and that an object determines the materials of each element."
  },
  {
   "property": "C47",
   "status": "proved",
   "theorems": [
    "C47_species",
    "C47_on_material_object",
    "C47_unknown_number_refuted",
    "C47_order_refuted"
   ],
   "note": "For any material object with finite chains, and for those made by to_silo."
  },
  {
   "property": "C48",
   "status": "proved",
   "theorems": [
    "C48_axes",
    "C48_axes_order",
    "C48_explicit",
    "C48_rectilinear",
    "C48_routes",
    "C48_structured",
    "C48_unstructured",
    "C48_cells",
    "C48_id_type",
    "C48_numbering",
    "C48_narrow_ids_refuted",
    "C48_empty_grid_refuted",
    "C48_integer_axis_refuted"
   ],
   "note": "Coordinates in an arbitrary type with arithmetic and conversion as parameters."
  },
  {
   "property": "C49",
   "status": "proved",
   "theorems": [
    "C49_offsets",
    "C49_offsets_polyhedral",
    "C49_offsets_stream",
    "C49_points",
    "C49_points_polyhedral",
    "C49_distinct",
    "C49_centroids",
    "C49_centroids_polyhedral",
    "C49_faces",
    "C49_big_polygon_refuted",
    "C49_thrice_refuted",
    "C49_narrow_offsets_refuted",
    "C49_stream_refuted",
    "C49_stream_offsets_refuted",
    "C49_mixed_refuted",
    "C49_half_offsets_refuted",
    "C49_triangles_refuted"
   ],
   "note": "Offsets, points, centroids and faces of all shapes. Proved for elements of at most eight points none of which occurs more than twice; the remaining cases are refuted (for polygons of more than eight points, always)."
  },
  {
   "property": "C50",
   "status": "proved",
   "theorems": [
    "C50_builder",
    "C50_builder_mesh",
    "C50_reorder",
    "C50_reindex",
    "C50_hilbert",
    "C50_reindex_refuted",
    "C50_offsets_refuted",
    "C50_hilbert_order_refuted",
    "C50_hilbert_cluster_refuted"
   ],
   "note": "Builder over all histories of calls; the Hilbert part for every function that partitions."
  },
  {
   "property": "C51",
   "status": "proved",
   "theorems": [
    "C51_tree",
    "C51_tree_float",
    "C51_search",
    "C51_plane_refuted",
    "C51_plane_double_refuted",
    "C51_near_refuted",
    "C51_empty_refuted"
   ],
   "note": "In exact arithmetic for all points; in IEEE arithmetic of any precision when the widened box holds the points."
  },
  {
   "property": "C52",
   "status": "proved",
   "theorems": [
    "C52_tree",
    "C52_merge",
    "C52_combine",
    "C52_near_refuted",
    "C52_within_refuted",
    "C52_equal_refuted",
    "C52_uniform_refuted",
    "C52_axes_refuted",
    "C52_spherical_refuted",
    "C52_systems_refuted",
    "C52_planar_refuted",
    "C52_single_refuted",
    "C52_logical_refuted"
   ],
   "note": "Exact arithmetic for the laws. The refuted parts are stated on execute, the whole operation."
  },
  {
   "property": "C53",
   "status": "proved",
   "theorems": [
    "C53_canonical",
    "C53_canonical_total",
    "C53_pairwise",
    "C53_across",
    "C53_maxshare",
    "C53_maxshare_order",
    "C53_back",
    "C53_tests",
    "C53_rename_refuted",
    "C53_is_canonical_refuted",
    "C53_big_domain_refuted",
    "C53_twice_refuted",
    "C53_maxshare_across_refuted",
    "C53_view_refuted",
    "C53_unsigned_refuted"
   ],
   "note": "Pairwise and max-share conversions, canonical names and tests proved, including agreement across two domains and the round trip; orders by name proved. Swapped names, loose canonical test, big ids, repeated entities, max-share across domains, unsigned ids refuted."
  },
  {
   "property": "C54",
   "status": "proved",
   "theorems": [
    "C54_message",
    "C54_message_fresh",
    "C54_raw_send",
    "C54_raw_recv",
    "C54_safe_tag",
    "C54_probe",
    "C54_probe_refuted",
    "C54_pieces_refuted",
    "C54_offset_refuted",
    "C54_stale_refuted",
    "C54_empty_refuted",
    "C54_two_blocks_refuted"
   ],
   "note": "Model of one message: bytes sent and what the receiver makes of them; MPI itself is trusted to deliver bytes. Sizes below 2^31; the *_refuted theorems are the exceptions."
  },
  {
   "property": "C55",
   "status": "proved",
   "theorems": [
    "C55_gather_schema",
    "C55_gather",
    "C55_all_gather",
    "C55_broadcast",
    "C55_broadcast_root",
    "C55_broadcast_schema",
    "C55_broadcast_in_place",
    "C55_reduce",
    "C55_gather_offset_refuted",
    "C55_gather_pieces_refuted",
    "C55_gather_unequal_refuted",
    "C55_gather_large_refuted",
    "C55_broadcast_longer_refuted",
    "C55_broadcast_order_refuted",
    "C55_broadcast_pieces_refuted",
    "C55_reduce_offset_refuted",
    "C55_reduce_order_refuted"
   ],
   "note": "Each collective is what a rank passes to MPI and what it makes of the parts of all ranks; MPI itself is trusted. Sizes below 2^31; the *_refuted theorems are the exceptions."
  },
  {
   "property": "C56",
   "status": "proved",
   "theorems": [
    "C56_exchange",
    "C56_transfers",
    "C56_negative_tag",
    "C56_high_tags_refuted",
    "C56_nothing_refuted",
    "C56_unmatched_refuted"
   ],
   "note": "Full statement for every schedule; exceptions proved as refutations."
  },
  {
   "property": "C57",
   "status": "proved",
   "theorems": [
    "C57_distribute",
    "C57_rank_map",
    "C57_no_destination_refuted",
    "C57_stay_refuted",
    "C57_same_id_refuted",
    "C57_nobody_refuted",
    "C57_two_owners_refuted"
   ],
   "note": "proved for every schedule; refuted: a domain without destination before the last, maps that leave a rank idle, two domains with one id, domains of the map nobody has or two ranks have"
  },
  {
   "property": "C58",
   "status": "proved",
   "theorems": [
    "C58_table",
    "C58_integers",
    "C58_special",
    "C58_floats",
    "C58_same_text",
    "C58_list_columns",
    "C58_tables",
    "C58_named_tables",
    "C58_digits_refuted",
    "C58_range_refuted",
    "C58_smallest_refuted",
    "C58_again_refuted",
    "C58_numeric_names_refuted",
    "C58_no_names_refuted",
    "C58_extra_entry_refuted",
    "C58_junk_refuted",
    "C58_list_kept_refuted",
    "C58_one_component_refuted",
    "C58_comma_refuted",
    "C58_slash_refuted",
    "C58_stale_refuted",
    "C58_directory_refuted",
    "C58_prefix_refuted"
   ],
   "note": "proved for all tables and listing orders; refuted: float digits, range, the smallest float32, integers of more than six digits when written again, numeric names, files without names, extra entries, junk after a number, lists, one-component groups, commas and slashes in names, stale files, directory and table names with table_list_"
  },
  {
   "property": "C59",
   "status": "proved",
   "theorems": [
    "C59_conversion",
    "C59_exact",
    "C59_there_and_back",
    "C59_bytes",
    "C59_reads_have",
    "C59_element",
    "C59_set",
    "C59_fill",
    "C59_array",
    "C59_scalar",
    "C59_text_integer",
    "C59_text_none",
    "C59_text_decimal",
    "C59_self_refuted",
    "C59_longer_refuted",
    "C59_nan_refuted",
    "C59_largest_refuted",
    "C59_endian_refuted",
    "C59_no_elements_refuted",
    "C59_object_refuted",
    "C59_text_inf_refuted",
    "C59_text_exponent_refuted",
    "C59_text_negative_refuted",
    "C59_text_int8_refuted"
   ],
   "note": "proved for all types, values, layouts and texts; refuted: converting a node into itself, a longer destination, NaN and out-of-range floats, the largest int64 through float64, foreign byte order, leaves without elements, objects, some texts"
  },
  {
   "property": "C60",
   "status": "proved",
   "theorems": [
    "C60_files_balanced",
    "C60_one_writer",
    "C60_round_trip",
    "C60_completes",
    "C60_failure",
    "C60_second_mesh",
    "C60_old_reader",
    "C60_map",
    "C60_root_only_dir_refuted",
    "C60_no_domains_refuted",
    "C60_top_directory_refuted",
    "C60_braces_refuted",
    "C60_second_mesh_refuted",
    "C60_rewrite_fewer_refuted",
    "C60_rewrite_one_refuted",
    "C60_old_pattern_refuted",
    "C60_sparse_ids_refuted",
    "C60_colon_refuted"
   ],
   "note": "Model: relay write_mesh/read_mesh with arbitrary schedules and write failures, BasicHandle protocols; domain contents are opaque. Names without / { } : % and NUL; domains are renumbered from 0 when written."
  },
  {
   "property": "C61",
   "status": "proved",
   "theorems": [
    "C61_as_if_written",
    "C61_readers_change_nothing",
    "C61_disk_at_close",
    "C61_closed_refuses",
    "C61_append_loses_refuted",
    "C61_failed_open_takes_writes_refuted",
    "C61_colon_mode_unset_refuted",
    "C61_two_writers_refuted",
    "C61_mode_words_refuted",
    "C61_read_trunc_refuted",
    "C61_other_protocol_refuted"
   ],
   "note": "Every program of handle calls refines a write-through file system with crash contents (forward simulation, any number of objects and files); readers keep bytes, disk changes only at open and close and closed objects refuse, unconditionally. Seven refutations. io::save / io::load enter through the hypothesis that a protocol reads back what it wrote (C36, C42-C44)."
  },
  {
   "property": "C62",
   "status": "proved",
   "theorems": [
    "C62_cover",
    "C62_count",
    "C62_by_field",
    "C62_no_end_refuted",
    "C62_none_to_split_refuted",
    "C62_past_end_refuted",
    "C62_overlap_refuted",
    "C62_single_ranges_refuted",
    "C62_minus_one_refuted",
    "C62_wide_value_refuted",
    "C62_more_than_target_refuted",
    "C62_named_target_refuted"
   ],
   "note": "Cover for every target and all fair requests (unbounded domains); exact count for whole meshes and divisible requests up to one domain per element; field selections exactly by value. Nine refutations."
  },
  {
   "property": "C63",
   "status": "proved",
   "theorems": [
    "C63_round_trip",
    "C63_history",
    "C63_slab",
    "C63_shorter_refuted",
    "C63_large_refuted",
    "C63_offset_overrun_refuted",
    "C63_offset_cut_refuted",
    "C63_list_over_object_refuted",
    "C63_list_overrun_refuted",
    "C63_failed_write_refuted",
    "C63_list_entry_refuted",
    "C63_list_remove_refuted",
    "C63_offset_list_refuted",
    "C63_offset_order_refuted",
    "C63_dot_refuted",
    "C63_slash_refuted",
    "C63_dots_refuted",
    "C63_into_order_refuted",
    "C63_into_longer_refuted"
   ],
   "note": "Round trip, all programs of writes and removals, and offset/stride writes, over a model of the library's groups and data sets. The refuted theorems are the cases outside: lists meeting objects, entries of lists by path, unlimited arrays made shorter, offset = 0 without length check, names that are paths, reading into nodes that hold something."
  },
  {
   "property": "C64",
   "status": "proved",
   "theorems": [
    "C64_parts",
    "C64_polygon_lines",
    "C64_small_lines",
    "C64_small_polygons",
    "C64_solid_lines",
    "C64_solid_points",
    "C64_flat_points",
    "C64_line_points",
    "C64_polygon_points",
    "C64_collision_refuted",
    "C64_wedge_side_refuted",
    "C64_big_polygon_refuted",
    "C64_twisted_refuted",
    "C64_gap_refuted",
    "C64_reordered_refuted",
    "C64_twice_refuted",
    "C64_points_refuted"
   ],
   "note": "For every sorting function. Faces of tets, hexes, wedges (sides in triangles) and pyramids, lines of triangles, quads, polygons (up to 32 points) and solids, points of all of these, with both maps. Hypothesis: the hash tells the entities apart (proved for lines with points below 256); solids also need shared faces to go round in the same order. Polyhedra are not modelled."
  },
  {
   "property": "C65",
   "status": "proved",
   "theorems": [
    "C65_total",
    "C65_columns",
    "C65_coordinates",
    "C65_fields",
    "C65_centers",
    "C65_ids",
    "C65_other_topology_refuted",
    "C65_first_type_refuted",
    "C65_component_type_refuted",
    "C65_uniform_refuted",
    "C65_mixed_coordinates_refuted",
    "C65_no_fields_refuted",
    "C65_domain_id_refuted",
    "C65_swapped_centers_refuted",
    "C65_short_field_refuted"
   ],
   "note": "Proved for domains that go together (fits): same axes in canonical order, no column name clashes, same association in every domain. The nine refutations show what happens otherwise."
  },
  {
   "property": "C66",
   "status": "proved",
   "theorems": [
    "C66_verify",
    "C66_report",
    "C66_report_domains",
    "C66_coordset",
    "C66_topology",
    "C66_matset",
    "C66_field",
    "C66_specset",
    "C66_adjset",
    "C66_nestset",
    "C66_window_refuted",
    "C66_shape_map_refuted",
    "C66_shape_type_refuted",
    "C66_shape_read_refuted",
    "C66_species_refuted",
    "C66_name_refuted",
    "C66_no_coordinates_refuted",
    "C66_lengths_refuted",
    "C66_no_materials_refuted",
    "C66_leaves_refuted",
    "C66_range_refuted",
    "C66_group_flag_refuted"
   ],
   "note": "Answer and report of mesh::verify and of the checks of its parts equal a schema on trees, for all trees with distinct names that are not words of reports and readable shape numbers; refuted: windows of adjacency sets, missing or odd shape maps, empty species, parts named valid, empty coordinates and materials, unequal components, index ranges."
  },
  {
   "property": "C67",
   "status": "proved",
   "theorems": [
    "C67_check",
    "C67_domain",
    "C67_accepted",
    "C67_domains",
    "C67_domains_accepted",
    "C67_logical_refuted",
    "C67_no_axes_refuted",
    "C67_empty_origin_refuted",
    "C67_no_materials_refuted",
    "C67_volume_dependent_refuted",
    "C67_matset_array_refuted",
    "C67_components_refuted",
    "C67_no_domains_refuted",
    "C67_two_systems_refuted"
   ],
   "note": "Proved: the check answers and reports as the schema of indices says for every tree with usable names; the index of a domain that passes mesh::verify and is indexable lists exactly its parts with path, type, axes, references, materials, species and component counts, and passes the check; the same for any number of domains whose parts of the same name are alike. Refuted exceptions are listed in the statement."
  },
  {
   "property": "C68",
   "status": "proved",
   "theorems": [
    "C68_store",
    "C68_place_same",
    "C68_place_other",
    "C68_protocol",
    "C68_slashes",
    "C68_no_place",
    "C68_detour",
    "C68_trailing_colon_refuted",
    "C68_missing_place_refuted",
    "C68_companion_refuted",
    "C68_colon_refuted",
    "C68_bare_name_refuted",
    "C68_drive_refuted",
    "C68_detour_refuted",
    "C68_two_slashes_refuted"
   ],
   "note": "For any program of save, save_merged, load and load_merged with the built-in protocols; what the protocols write and read (any that read back what they wrote) and Node::update are parameters."
  },
  {
   "property": "C69",
   "status": "proved",
   "theorems": [
    "C69_means",
    "C69_answer",
    "C69_report",
    "C69_report_many",
    "C69_empty_refuted",
    "C69_valid_refuted",
    "C69_blame_refuted",
    "C69_blame_first_refuted",
    "C69_ragged_refuted"
   ],
   "note": "Answer and report of table::verify for all trees with decent names whose columns with components are not empty; five refutations about empty columns, a column called valid, columns after a wrong one and ragged components."
  },
  {
   "property": "C70",
   "status": "proved",
   "theorems": [
    "C70_answer",
    "C70_unknown",
    "C70_nested",
    "C70_nested_mesh",
    "C70_slash",
    "C70_parallel",
    "C70_parallel_other",
    "C70_parallel_part_refuted",
    "C70_parallel_error_refuted",
    "C70_parallel_report_refuted",
    "C70_silent_refuted",
    "C70_slash_refuted",
    "C70_front_refuted"
   ],
   "note": "Answers of blueprint::verify for every protocol by name, and for all other strings, and of blueprint::mpi::verify for any number of ranks; six refutations about missing reports, slashes and differences between the serial and the parallel check."
  },
  {
   "property": "C71",
   "status": "proved",
   "theorems": [
    "C71_map",
    "C71_found",
    "C71_taken_refuted",
    "C71_two_refuted",
    "C71_negative_refuted",
    "C71_none_refuted"
   ],
   "note": "The array of generate_domain_to_rank_map for any ranks and domains, numbered or not, with numbers used several times; four refutations about unnumbered domains, negative numbers and ranks without domains."
  },
  {
   "property": "C72",
   "status": "proved",
   "theorems": [
    "C72_index",
    "C72_accepted",
    "C72_spread",
    "C72_none_refuted",
    "C72_state_refuted"
   ],
   "note": "Indices of all ranks merged; independent of the spread. all_gather_using_schema is taken to deliver the trees sent. The exceptions are proved as refutations."
  }
 ]
}