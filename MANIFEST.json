{
 "claims": [
  {
   "property": "C01",
   "status": "proved",
   "theorems": [
    "C01_is_pow2",
    "C01_bit_log2",
    "C01_ctz",
    "C01_clz",
    "C01_zero",
    "C01_ceil_pow2",
    "C01_ceil_pow2_overflow",
    "C01_mod_pow2",
    "C01_div_pow2_floor",
    "C01_div_pow2_ceil"
   ],
   "note": "32/64-bit overloads (clz also 8/16). ceil_pow2 above the top power of two returns 1 (C01_ceil_pow2_overflow)."
  },
  {
   "property": "C02",
   "status": "proved",
   "theorems": [
    "C02_set_bit",
    "C02_unset_bit",
    "C02_flip_bit",
    "C02_has_bit",
    "C02_popcount",
    "C02_byteswap",
    "C02_byteswap_involutive"
   ],
   "note": "all four overload widths"
  },
  {
   "property": "C03",
   "status": "proved",
   "theorems": [
    "C03_align_down",
    "C03_align_up",
    "C03_align_up_narrow",
    "C03_align_up_overflow",
    "C03_is_aligned",
    "C03_int_div_ceil",
    "C03_int_div_ceil_contract",
    "C03_int_ceil_to_multiple",
    "C03_int_ceil_to_multiple_signed"
   ],
   "note": "including the overflow behaviour of align_up"
  },
  {
   "property": "C04",
   "status": "proved",
   "theorems": [
    "C04_wrapped_inverse",
    "C04_wrapped_orbit"
   ],
   "note": "unsigned T"
  },
  {
   "property": "C05",
   "status": "proved",
   "theorems": [
    "C05_roundtrip"
   ],
   "note": "encodings shorter than 2^31 characters"
  },
  {
   "property": "C06",
   "status": "proved",
   "theorems": [
    "C06_encode_rfc4648",
    "C06_encode_length"
   ],
   "note": ""
  },
  {
   "property": "C07",
   "status": "partial",
   "theorems": [
    "C07_decode_rfc4648",
    "C07_decode_length",
    "C07_decode_prefix_only",
    "C07_decode_strict",
    "C07_strict_indeterminate_refuted",
    "C07_huge_refuted"
   ],
   "note": "proved for texts shorter than 2^31 characters, with the never-written local bytes holding some fixed value; refuted: a prefix of 1 or 2 characters evaluates an uninitialised byte, and a 2^32 character text decodes to nothing"
  },
  {
   "property": "C08",
   "status": "proved",
   "theorems": [
    "C08_fips180_4",
    "C08_make_hash",
    "C08_hex_string",
    "C08_reuse_after_reset"
   ],
   "note": ""
  },
  {
   "property": "C09",
   "status": "proved",
   "theorems": [
    "C09_split_invariance"
   ],
   "note": ""
  },
  {
   "property": "C10",
   "status": "proved",
   "theorems": [
    "C10_sort_range",
    "C10_sort",
    "C10_sort_by"
   ],
   "note": ""
  },
  {
   "property": "C11",
   "status": "proved",
   "theorems": [
    "C11_quickselect",
    "C11_rank"
   ],
   "note": ""
  },
  {
   "property": "C12",
   "status": "partial",
   "theorems": [
    "C12_quickselect_range_partial",
    "C12_size_max_refuted",
    "C12_overflow_refuted"
   ],
   "note": "quickselect_range casts count to a signed type: count = SIZE_MAX sorts nothing, and idx > 0 with a huge count overflows (UB). Proved when idx + count does not overflow."
  },
  {
   "property": "C13",
   "status": "proved",
   "theorems": [
    "C13_partition_range",
    "C13_partition_by"
   ],
   "note": ""
  },
  {
   "property": "C14",
   "status": "proved",
   "theorems": [
    "C14_is_sorted",
    "C14_is_strictly_sorted"
   ],
   "note": ""
  },
  {
   "property": "C15",
   "status": "proved",
   "theorems": [
    "C15_history",
    "C15_copy_move",
    "C15_stable"
   ],
   "note": ""
  },
  {
   "property": "C16",
   "status": "proved",
   "theorems": [
    "C16_history"
   ],
   "note": ""
  },
  {
   "property": "C17",
   "status": "partial",
   "theorems": [
    "C17_self_copy_assign_refuted",
    "C17_self_move_assign_refuted",
    "C17_self_assign_partial"
   ],
   "note": "Copy- or move-assigning a forward_list to itself empties it. Proved for all histories without self-assignment."
  },
  {
   "property": "C18",
   "status": "proved",
   "theorems": [
    "C18_history",
    "C18_add_all"
   ],
   "note": ""
  },
  {
   "property": "C19",
   "status": "proved",
   "theorems": [
    "C19_iteration",
    "C19_equality"
   ],
   "note": ""
  },
  {
   "property": "C20",
   "status": "partial",
   "theorems": [
    "C20_set_moved_from_refuted",
    "C20_set_move_partial",
    "C20_map_moved_from_refuted",
    "C20_map_move_partial"
   ],
   "note": "A moved-from set or map keeps its size and a lookup in it violates a contract. Proved: the destination holds the old contents, clear() makes the source usable again, moving from an empty one is fine."
  },
  {
   "property": "C21",
   "status": "proved",
   "theorems": [
    "C21_history"
   ],
   "note": ""
  },
  {
   "property": "C22",
   "status": "proved",
   "theorems": [
    "C22_iteration",
    "C22_equality"
   ],
   "note": ""
  },
  {
   "property": "C23",
   "status": "proved",
   "theorems": [
    "C23_references",
    "C23_index_ptr"
   ],
   "note": ""
  },
  {
   "property": "C24",
   "status": "proved",
   "theorems": [
    "C24_history",
    "C24_representatives",
    "C24_total",
    "C24_oversized_init"
   ],
   "note": ""
  },
  {
   "property": "C25",
   "status": "proved",
   "theorems": [
    "C25_linearizable",
    "C25_conservation",
    "C25_exclusive_payload"
   ],
   "note": ""
  },
  {
   "property": "C26",
   "status": "proved",
   "theorems": [
    "C26_false_justified",
    "C26_sequential",
    "C26_solo"
   ],
   "note": ""
  },
  {
   "property": "C27",
   "status": "proved",
   "theorems": [
    "C27_history",
    "C27_push_own",
    "C27_stable"
   ],
   "note": ""
  },
  {
   "property": "C28",
   "status": "partial",
   "theorems": [
    "C28_reserve_limit",
    "C28_remove_range_refuted",
    "C28_remove_range_partial"
   ],
   "note": "remove_range checks start + count in size_t; the wrapped sum passes and elements out of range are touched (UB). Proved when the sum does not wrap."
  },
  {
   "property": "C29",
   "status": "partial",
   "theorems": [
    "C29_leaves_elements_refuted",
    "C29_contents_partial"
   ],
   "note": "shrink_to_fit moves the elements but frees the old storage without destroying the moved-from elements. Proved: contents and capacity; exactly when nothing is left behind."
  },
  {
   "property": "C30",
   "status": "partial",
   "theorems": [
    "C30_history",
    "C30_moved_from_refuted",
    "C30_moved_from_leaks",
    "C30_move_partial"
   ],
   "note": "Moving from a capped_vector sets the source size to 0 without destroying its moved-from elements. Proved for all histories without moves, and the destination of a move."
  },
  {
   "property": "C31",
   "status": "partial",
   "theorems": [
    "C31_history_partial",
    "C31_c_str_partial",
    "C31_nul_refuted"
   ],
   "note": "remove_prefix and remove_suffix do not write a terminator, so c_str() is not terminated at size() afterwards. Proved for all histories: contents always equal the ideal characters, and the terminator is there unless one of these was the last to change the end."
  },
  {
   "property": "C32",
   "status": "proved",
   "theorems": [
    "C32_append_own"
   ],
   "note": ""
  },
  {
   "property": "C33",
   "status": "partial",
   "theorems": [
    "C33_moved_from_refuted",
    "C33_self_move_refuted",
    "C33_short_partial",
    "C33_reuse_partial"
   ],
   "note": "A moved-from long sbo_string has null data with its old size; self-move of a long string frees its characters and leaves a size above the capacity. Proved: short strings, and clear / assign / destroy of a moved-from string."
  },
  {
   "property": "C34",
   "status": "proved",
   "theorems": [
    "C34_index_of",
    "C34_last_index_of",
    "C34_all_indices_of",
    "C34_index_of_char",
    "C34_last_index_of_char",
    "C34_contains_char",
    "C34_contains",
    "C34_contains_ignore_case",
    "C34_starts_with",
    "C34_ends_with",
    "C34_equality",
    "C34_split_once",
    "C34_common_prefix"
   ],
   "note": ""
  },
  {
   "property": "C35",
   "status": "proved",
   "theorems": [
    "C35_keep",
    "C35_keep_pred",
    "C35_skip"
   ],
   "note": ""
  },
  {
   "property": "C36",
   "status": "partial",
   "theorems": [
    "C36_clamped_refuted",
    "C36_clamped_partial"
   ],
   "note": "subview_clamped(offset, size) with a wrapping sum skips the clamp and returns a view of 2^64 - 1 characters. Proved when the sum does not wrap."
  },
  {
   "property": "C37",
   "status": "proved",
   "theorems": [
    "C37_round_trip",
    "C37_text_unique"
   ],
   "note": ""
  },
  {
   "property": "C38",
   "status": "partial",
   "theorems": [
    "C38_only_numbers_refuted",
    "C38_negative_refuted",
    "C38_view_refuted",
    "C38_accepted_exactly_partial",
    "C38_int64_partial",
    "C38_small_partial",
    "C38_complete",
    "C38_view_partial"
   ],
   "note": "from_string goes through 64-bit strtol / strtoul: \"4294967296\" is the int 0, \"-1\" an unsigned, leading blanks are accepted; the string_view overloads stop at a NUL and after 255 characters. Proved: exactly what is accepted (and full for int64_t up to blanks); no number in range is rejected."
  },
  {
   "property": "C39",
   "status": "partial",
   "theorems": [
    "C39_parse",
    "C39_zero_binary_refuted",
    "C39_padding_refuted",
    "C39_min_refuted",
    "C39_overrun_refuted",
    "C39_field_partial",
    "C39_no_overrun_partial"
   ],
   "note": "Base 2 prints nothing for 0 and ignores the width; alignment is ignored; the sign precedes blank padding; \"#x\" over-reads its stack buffer for large values; the most negative int / long overflows. Proved: the field in all other cases, memory safety, and the grammar."
  },
  {
   "property": "C40",
   "status": "partial",
   "theorems": [
    "C40_strided_slices_partial",
    "C40_strided_access",
    "C40_strided_project",
    "C40_span_slices_partial",
    "C40_span_access",
    "C40_subspan_refuted"
   ],
   "note": "subspan(offset, count) checks offset + count in size_t: subspan(1, SIZE_MAX) passes on every non-empty span and gives a span of 2^64 - 1 elements. Proved: every chain of slices whose sums do not wrap, and all element access and iteration."
  },
  {
   "property": "C41",
   "status": "partial",
   "theorems": [
    "C41_chunks_partial",
    "C41_zero_chunk",
    "C41_for_each_partial",
    "C41_for_each_refuted",
    "C41_chunk_bytes_refuted"
   ],
   "note": "for_each_chunk skips the current chunk when it is exactly full: with chunk size c the last c elements are lost whenever the count is a multiple of c. A chunk size whose byte count wraps 64 bits allocates too little. Proved: chunks(), size and address stability for all other chunk sizes; exactly what for_each_chunk visits."
  },
  {
   "property": "C42",
   "status": "partial",
   "theorems": [
    "C42_ranges_partial",
    "C42_narrow_refuted"
   ],
   "note": "With an index type narrower than size_t the start of a range is truncated: 256 elements and an 8-bit index make the first range empty. Proved while the number of elements fits the index type (always for the default)."
  },
  {
   "property": "C43",
   "status": "partial",
   "theorems": [
    "C43_blocks",
    "C43_alloc_succeeds_iff_fits",
    "C43_size_of_latest",
    "C43_size_sound",
    "C43_realloc_in_place",
    "C43_realloc_older_rejected",
    "C43_sizes",
    "C43_realloc_alignment_refuted"
   ],
   "note": "realloc ignores its alignment argument (the block stays where it is). Sizes near 2^64 wrap past the bounds check. get_allocation_size answers only for the most recent block. Proved: everything else for all histories."
  },
  {
   "property": "C44",
   "status": "partial",
   "theorems": [
    "C44_blocks",
    "C44_alloc_succeeds_iff_fits",
    "C44_free_restores",
    "C44_free_older_detected",
    "C44_realloc_older_detected",
    "C44_double_free_detected",
    "C44_realloc_in_place",
    "C44_stale_free_refuted",
    "C44_large_alignment_refuted"
   ],
   "note": "A stale pointer whose old header has not been overwritten is accepted by free and releases a different live block; alignments above 2^31 overflow the 32-bit padding field. Proved: blocks, exact restoration, detection of older live blocks and of an immediate double free."
  },
  {
   "property": "C45",
   "status": "proved",
   "theorems": [
    "C45_tightest"
   ],
   "note": ""
  },
  {
   "property": "C46",
   "status": "partial",
   "theorems": [
    "C46_blocks_committed",
    "C46_size",
    "C46_alloc_succeeds_iff_partial",
    "C46_alloc_never_faults",
    "C46_realloc_latest_keeps",
    "C46_realloc_older_copies",
    "C46_fits_but_fails_refuted",
    "C46_wrap_refuted",
    "C46_decommit_small_chunk_refuted",
    "C46_decommit_count_refuted"
   ],
   "note": "alloc rounds the whole request, not the missing part, up to chunks, so requests that fit in the reservation fail; sizes near 2^64 wrap past the check; decommit_physical_memory with a chunk size below the page size takes away pages of live blocks, and its return value is close to 2^64 when the reservation is not a multiple of the chunk size. Proved: every block is committed, disjoint and inside; a request succeeds exactly when its chunk-rounded size fits; no request faults."
  },
  {
   "property": "C47",
   "status": "partial",
   "theorems": [
    "C47_blocks_partial",
    "C47_size",
    "C47_completes_iff",
    "C47_enough_room",
    "C47_reset_recovers",
    "C47_size_wrap_refuted",
    "C47_offset_wrap_refuted",
    "C47_overcommit_writes_outside_refuted"
   ],
   "note": "A size near 2^64 wraps the reserved amount to 0 and passes both checks; calls in flight that are about to fail can wrap the offset so that another thread gets a block that is already handed out; a request that does not fit writes its header behind the buffer before it is rejected. Proved: all interleavings in which the sum of the requests stays below 2^64."
  },
  {
   "property": "C48",
   "status": "proved",
   "theorems": [
    "C48_blocks",
    "C48_alloc_succeeds",
    "C48_alloc_full",
    "C48_free",
    "C48_contents",
    "C48_index",
    "C48_initialize",
    "C48_initialize_contract"
   ],
   "note": ""
  },
  {
   "property": "C49",
   "status": "partial",
   "theorems": [
    "C49_one_owner_partial",
    "C49_never_faults_partial",
    "C49_nothing_lost_partial",
    "C49_aba_refuted",
    "C49_null_read_refuted"
   ],
   "note": "ABA: the compare-exchange of alloc succeeds after the head was taken and returned in between, and an owned block becomes the head of the free list. Two threads racing for the last block: the slower one reads through a null pointer. Proved: all interleavings in which allocs do not overlap each other, or do not overlap frees."
  },
  {
   "property": "C50",
   "status": "partial",
   "theorems": [
    "C50_one_owner_partial",
    "C50_acquire_iff",
    "C50_retry_only_if_raced",
    "C50_never_faults",
    "C50_release_owned",
    "C50_version_wrap_refuted"
   ],
   "note": "The version counter of the free list head has 32 bits: a thread sleeping between its load and its compare-exchange while others change the head a multiple of 2^32 times hands out an owned slot. Proved: all interleavings in which no acquire sleeps through 2^32 changes."
  },
  {
   "property": "C51",
   "status": "partial",
   "theorems": [
    "C51_owned_alive",
    "C51_stale_exact",
    "C51_stale_detected_partial",
    "C51_wrap_refuted"
   ],
   "note": "The 13-bit generation counter wraps: after 8192 releases of a slot an old handle is alive again. Proved: exactly when a stale handle is reported alive, and that it is detected while its slot has been released fewer than 8192 times."
  },
  {
   "property": "C52",
   "status": "partial",
   "theorems": [
    "C52_overrun_refuted",
    "C52_one_more_suffices_partial",
    "C52_rejects"
   ],
   "note": "initialize allocates sizeof(int32_t) * (size - 1) bytes for the free list but writes size elements: a heap overrun for every pool size. Proved: with one more element all accesses are inside (the theorems for C50 and C51 assume that)."
  },
  {
   "property": "C53",
   "status": "proved",
   "theorems": [
    "C53_mutual_exclusion",
    "C53_no_data_race",
    "C53_try_lock_exact",
    "C53_try_lock_busy",
    "C53_lock_waits",
    "C53_free_lock_is_taken"
   ],
   "note": ""
  },
  {
   "property": "C54",
   "status": "partial",
   "theorems": [
    "C54_history_partial",
    "C54_self_assign_refuted",
    "C54_self_assign_empty",
    "C54_emplace_own_refuted",
    "C54_empty_value_reported",
    "C54_less_order"
   ],
   "note": "Copy-assigning an optional to itself destroys the value and leaves it empty; emplace and assignment from a reference to the own value read the destroyed object. Proved: all histories without these."
  },
  {
   "property": "C55",
   "status": "partial",
   "theorems": [
    "C55_history_partial",
    "C55_lvalue_ctor_refuted",
    "C55_missing_type_refuted",
    "C55_many_alternatives_refuted",
    "C55_self_assign_refuted",
    "C55_own_value_refuted",
    "C55_wrong_type_reported"
   ],
   "note": "variant(T&&) computes the index from T instead of decay_t<T>: constructing from an lvalue stores the value but the tag of the last alternative, so is is wrong and the destructor destroys a wrong type. index_of_type returns the last index instead of -1 for types that are no alternative, so the static_asserts never fire and is<Y>() is true for such Y. More than 256 alternatives overflow the index byte. Assigning a variant (or the value it holds) to itself reads a destroyed object. transform and copies of non-const variants do not compile. Proved: all histories without these."
  },
  {
   "property": "C56",
   "status": "partial",
   "theorems": [
    "C56_history_partial",
    "C56_self_copy",
    "C56_self_move_refuted",
    "C56_wrong_kind_reported"
   ],
   "note": "Moving a result to itself destroys its content and then moves from the destroyed object. Proved: all histories without that."
  },
  {
   "property": "C57",
   "status": "partial",
   "theorems": [
    "C57_history_partial",
    "C57_alive_iff_owned_partial",
    "C57_collection_unique",
    "C57_assignment_refuted",
    "C57_drop_head_refuted"
   ],
   "note": "Both assignments drop the old object first and read the right hand side afterwards: if the right hand side is a member of an object that only the left hand side keeps alive (head = head->next, head = move(head->next)), it is used after its destruction. Proved: all histories without this, and that exactly the assignments excluded have undefined behaviour."
  },
  {
   "property": "C58",
   "status": "partial",
   "theorems": [
    "C58_history_partial",
    "C58_drop_head_refuted",
    "C58_assignment_refuted"
   ],
   "note": "Move assignment frees the old object first and reads the right hand side afterwards: p = move(p->next) reads and writes a pointer inside the freed head. Proved: this is undefined for every structure and every non-null p; all other histories are correct."
  },
  {
   "property": "C59",
   "status": "partial",
   "theorems": [
    "C59_history_partial",
    "C59_move_ctor_leaks_refuted",
    "C59_move_hollow_refuted",
    "C59_memcpy_assign_refuted",
    "C59_self_move_refuted"
   ],
   "note": "The move constructor clears the destructor of the moved-from payload, which is then leaked. Move assignment takes over the destructor of the source without clearing it: from a moved-from box it later runs on raw storage, and with memcpy (trivially movable payloads) the payload is destroyed twice. Moving a box to itself moves from a destroyed payload. Proved: histories without these. get() does not compile."
  },
  {
   "property": "C60",
   "status": "partial",
   "theorems": [
    "C60_history_partial",
    "C60_not_bits",
    "C60_not_refuted",
    "C60_index_refuted",
    "C60_index31_refuted",
    "C60_mask_refuted"
   ],
   "note": "operator~ sets the unused bits (any, all, ==, >> are then wrong), 1 << idx is an int (undefined from index 32 on, index 31 touches all higher bits), all() and << do not compile for N >= 31. Proved: all programs without these, for N up to 64."
  },
  {
   "property": "C61",
   "status": "partial",
   "theorems": [
    "C61_sets_partial",
    "C61_has_partial",
    "C61_queries",
    "C61_eq_enum_partial",
    "C61_single",
    "C61_iterate_partial",
    "C61_to_string_partial",
    "C61_shift_refuted",
    "C61_31_refuted",
    "C61_to_string_refuted"
   ],
   "note": "1 << e is an int: with 64 bit storage enumerators from 32 on are undefined, enumerator 31 sets all bits from 31 on, iteration over such values and to_string are undefined. Proved: storage up to 32 bits, and enumerators below 31 with 64 bits."
  },
  {
   "property": "C62",
   "status": "proved",
   "theorems": [
    "C62_substitution"
   ],
   "note": "See C91 for the whole format language."
  },
  {
   "property": "C63",
   "status": "partial",
   "theorems": [
    "C63_c_string",
    "C63_view_partial",
    "C63_behind",
    "C63_unfinished_refuted"
   ],
   "note": "format_to with a view that ends within a % specification (%5) reads the character behind it. Proved: for all other views, for the pythonic formatter and for C strings nothing but the view (and its terminator) is read."
  },
  {
   "property": "C64",
   "status": "proved",
   "theorems": [
    "C64_combine_bijective",
    "C64_sequence",
    "C64_sequence_each",
    "C64_string_each",
    "C64_bytes_each",
    "C64_bytes_small",
    "C64_bytes_word",
    "C64_floating_point"
   ],
   "note": ""
  },
  {
   "property": "C65",
   "status": "partial",
   "theorems": [
    "TlsfMapProps.C65_classes_are_intervals",
    "TlsfMapProps.C65_index_in_tables",
    "TlsfMapProps.C65_second_index",
    "TlsfMapProps.C65_good_fit",
    "TlsfMapProps.C65_at_most_a_32nd_lost",
    "TlsfMapProps.C65_search_finds_smallest",
    "TlsfMapProps.C65_largest_requests_refused",
    "TlsfMapProps.C65_pool_of_max_size_refuted"
   ],
   "note": "Good fit, the interval of every class and the bitmap search are proved for all sizes and bitmaps; indices lie in the tables for all sizes below 2^32. The size 2^32 itself, which tlsf_add_pool accepts, is refuted: it indexes past the tables."
  },
  {
   "property": "C66",
   "status": "partial",
   "theorems": [
    "TlsfProps.C66_every_history_safe",
    "TlsfProps.C66_create",
    "TlsfProps.C66_check_passes",
    "TlsfProps.C66_reported_size",
    "TlsfProps.C97_all_freed",
    "TlsfProps.C66_huge_malloc_refuted",
    "TlsfProps.C66_huge_alignment_refuted"
   ],
   "note": "Every history of malloc, memalign, free, realloc, byte stores, add_pool and remove_pool from tlsf_create is free of assertion failures and of accesses outside the pools; live buffers are disjoint, inside a pool and aligned; tlsf_check and tlsf_check_pool pass. Proved for sizes up to 2^64-8, alignments up to 2^62 and pools below 2^32+16 bytes; sizes above wrap around and are refuted, as is an alignment of 2^63."
  },
  {
   "property": "C67",
   "status": "partial",
   "theorems": [
    "PAllocProps.C67_distinct_partial",
    "PAllocProps.C67_disjoint_partial",
    "PAllocProps.C67_alloc_partial",
    "PAllocProps.C67_free_partial",
    "PAllocProps.C67_sizes",
    "PAllocProps.C67_large_refuted"
   ],
   "note": "For all histories, threads and object sizes up to 65536 bytes: live objects are disjoint, alloc and free always succeed, on any thread. Objects above 65536 bytes can never be allocated (contract), proved as a refutation of \"any size\"."
  },
  {
   "property": "C68",
   "status": "proved",
   "theorems": [
    "RadixProps.C68_sorts",
    "RadixProps.C68_unique"
   ],
   "note": "For all arrays and lengths: sorted permutation of the first n elements, the rest of both arrays unchanged, no access out of bounds."
  },
  {
   "property": "C69",
   "status": "partial",
   "theorems": [
    "SStrProps.C69_history_partial",
    "SStrProps.C69_reserve_partial",
    "SStrProps.C69_reserve_refuted",
    "SStrProps.C69_self_move_refuted"
   ],
   "note": "Every history over any number of streams keeps the ideal sequences, provided that the total size stays below half of the address space and no stream is move-assigned to itself; both provisos are necessary (refuted with witnesses)."
  },
  {
   "property": "C70",
   "status": "partial",
   "theorems": [
    "LessProps.C70_strict_weak_partial",
    "LessProps.C70_total_partial",
    "LessProps.C70_lexicographic_partial",
    "LessProps.C70_strict_partial",
    "LessProps.C70_strict_weak_refuted",
    "LessProps.C70_coarse_ne_refuted",
    "LessProps.C70_tuple_equality",
    "LessProps.C70_tuple_eq_componentwise",
    "LessProps.C70_tuple_ne",
    "LessProps.C70_optional",
    "LessProps.C70_optional_total",
    "LessProps.C70_optional_order"
   ],
   "note": "cascaded_less for any number of components is a strict weak (total) order if != of all but the last component agrees with <; without that it is refuted, even for a != compatible with <. pair and tuple have no operator<; their == and != are proved. less<optional>: proved."
  },
  {
   "property": "C71",
   "status": "partial",
   "theorems": [
    "AArrProps.C71_padding",
    "AArrProps.C71_new_array_partial",
    "AArrProps.C71_delete_array_partial",
    "AArrProps.C71_roundtrip_partial",
    "AArrProps.C71_new_array_sized_partial",
    "AArrProps.C71_delete_array_sized_partial",
    "AArrProps.C71_new_t",
    "AArrProps.C71_delete_t",
    "AArrProps.C71_delete_null",
    "AArrProps.C71_string_copy_partial",
    "AArrProps.C71_data_copy_partial",
    "AArrProps.C71_realloc",
    "AArrProps.C71_realloc_null",
    "AArrProps.C71_realloc_zero",
    "AArrProps.C71_realloc_contract",
    "AArrProps.C71_new_array_hangs_refuted",
    "AArrProps.C71_overflow_refuted",
    "AArrProps.C71_overflow_ub_refuted",
    "AArrProps.C71_misaligned_refuted",
    "AArrProps.C71_empty_span_refuted"
   ],
   "note": "Proved for every allocator, type and n below 2^32 whose size does not overflow and whose address suits a size_t; each of these provisos is necessary (refuted)."
  },
  {
   "property": "C72",
   "status": "partial",
   "theorems": [
    "C72_empty_refuted",
    "C72_empty_partial"
   ],
   "note": "array<T, N>::empty() returns N > 0, the opposite of emptiness for every N."
  },
  {
   "property": "C73",
   "status": "partial",
   "theorems": [
    "C73_add_own_refuted",
    "C73_add_own_partial"
   ],
   "note": "set.add(reference to an own element) frees that element while rehashing, before using the reference. Proved: a no-op exactly if no rehash is needed."
  },
  {
   "property": "C74",
   "status": "partial",
   "theorems": [
    "C74_own_range_refuted",
    "C74_own_range_partial"
   ],
   "note": "push_back_range of own elements reads freed storage if it grows. Proved: right exactly if it does not grow."
  },
  {
   "property": "C75",
   "status": "partial",
   "theorems": [
    "C75_subview_refuted",
    "C75_subview_partial",
    "C75_slices"
   ],
   "note": "subview accepts a wrapping offset + size. Proved when the sum does not wrap."
  },
  {
   "property": "C76",
   "status": "proved",
   "theorems": [
    "C76_trim_start",
    "C76_trim_end",
    "C76_trim",
    "C76_trim_unique"
   ],
   "note": ""
  },
  {
   "property": "C77",
   "status": "proved",
   "theorems": [
    "C77_lex",
    "C77_strict_total_order"
   ],
   "note": ""
  },
  {
   "property": "C78",
   "status": "partial",
   "theorems": [
    "C78_ascii_refuted",
    "C78_ascii_partial"
   ],
   "note": "ascii_lexicographical_less stops at an embedded NUL and then compares lengths only, so it is not a total order. Proved for NUL-free strings."
  },
  {
   "property": "C79",
   "status": "partial",
   "theorems": [
    "C79_self_insert_refuted",
    "C79_replace_own_partial"
   ],
   "note": "In the in-place path replace / insert move the tail before reading the replacement: a view into the string is read after it changed, or memcpy overlaps. Proved: views before the replaced part, and all replacements that reallocate."
  },
  {
   "property": "C80",
   "status": "partial",
   "theorems": [
    "C80_replace_refuted",
    "C80_rejects_partial"
   ],
   "note": "replace and replaced check pos + count in size_t: \"abc\".replace(1, 2^64 - 1, \"\") becomes \"aaaa\". Proved when the sum does not wrap; all other operations."
  },
  {
   "property": "C81",
   "status": "partial",
   "theorems": [
    "C81_precision_and_width_refuted",
    "C81_text_field_partial",
    "C81_no_spec"
   ],
   "note": "A precision that cuts the text drops the width. Proved in all other cases (texts below 2 GiB)."
  },
  {
   "property": "C82",
   "status": "proved",
   "theorems": [
    "C82_round_trip",
    "C82_accepts_only"
   ],
   "note": ""
  },
  {
   "property": "C83",
   "status": "proved",
   "theorems": [
    "C83_of_cstr",
    "C83_access"
   ],
   "note": ""
  },
  {
   "property": "C84",
   "status": "proved",
   "theorems": [
    "C84_copy_from",
    "C84_fill_from",
    "C84_equals_content"
   ],
   "note": ""
  },
  {
   "property": "C85",
   "status": "proved",
   "theorems": [
    "C85_clamped",
    "C85_wrapped"
   ],
   "note": ""
  },
  {
   "property": "C86",
   "status": "proved",
   "theorems": [
    "C86_reinterpret"
   ],
   "note": ""
  },
  {
   "property": "C87",
   "status": "partial",
   "theorems": [
    "C87_blocks_partial",
    "C87_elements_refuted"
   ],
   "note": "The destructor frees the chunks without destroying the elements. Proved: every block is freed exactly once."
  },
  {
   "property": "C88",
   "status": "partial",
   "theorems": [
    "C88_history_partial",
    "C88_fixed_compare",
    "C88_fixed_index",
    "C88_resize_refuted",
    "C88_bytes_refuted"
   ],
   "note": "resize(n, a[i]) destroys the elements before it copies the value; array(n) with n * sizeof(T) beyond 2^64 allocates too little. Proved: all other histories, including self-assignment and release of every block."
  },
  {
   "property": "C89",
   "status": "proved",
   "theorems": [
    "C89_blocks_committed",
    "C89_free_restores",
    "C89_free_older_detected",
    "C89_is_latest",
    "C89_realloc_in_place",
    "C89_alloc_never_faults"
   ],
   "note": ""
  },
  {
   "property": "C90",
   "status": "partial",
   "theorems": [
    "C90_check_partial",
    "C90_free_past_end_refuted",
    "C90_incomplete_block_refuted",
    "C90_initialize_diverges_refuted"
   ],
   "note": "free and get_node_offset_bytes accept the address behind the last block (`<=` instead of `<`): free then writes outside the buffer or makes an incomplete block available. The linking loop counts in 32 bits and never ends for more than 2^32 blocks. Proved: exactly these pointers are accepted."
  },
  {
   "property": "C91",
   "status": "partial",
   "theorems": [
    "C91_meaning_partial",
    "C91_only_language",
    "C91_index_refuted",
    "C91_append_partial",
    "C91_append_refuted",
    "C91_documented_example_refuted"
   ],
   "note": "Argument numbers wrap modulo 2^64, format_to(string&) ignores the formatter asked for, and the example of the documentation is refused. Proved: everything else."
  },
  {
   "property": "C92",
   "status": "partial",
   "theorems": [
    "C92_stringhash",
    "C92_prefix_partial",
    "C92_overread_refuted",
    "C92_empty_refuted"
   ],
   "note": "The loop reads s[n] before it compares n with 0, so a range of exactly n characters is over-read; n = 0 gives 0 instead of the hash of the empty string. Proved in all other cases."
  },
  {
   "property": "C93",
   "status": "partial",
   "theorems": [
    "C93_integers_partial",
    "C93_doubles_refuted"
   ],
   "note": "The bucket is the hash modulo the number of buckets, and the hash of a double is its bits, the low ones of which are zero: all positive integers below 2^j, stored as doubles, share one bucket of up to 2^(53-j). Proved for integers (hash equal to the value)."
  },
  {
   "property": "C94",
   "status": "partial",
   "theorems": [
    "PAllocProps.C94_bounded_partial",
    "PAllocProps.C94_bounded_refuted",
    "PAllocThreadsProps.C94_threads_refuted"
   ],
   "note": "Proved when only one thread uses the kind of object; refuted for two threads (one allocates, the other frees) and for threads that end: n threads, one after the other, each of which frees its own object, keep n arrays."
  },
  {
   "property": "C95",
   "status": "proved",
   "theorems": [
    "TlsfProps.C95_stored_bytes_persist",
    "TlsfProps.C95_store_recorded"
   ],
   "note": "Same histories as C66."
  },
  {
   "property": "C96",
   "status": "partial",
   "theorems": [
    "TlsfProps.C96_realloc",
    "TlsfProps.C96_shrink",
    "TlsfProps.C96_zero_frees",
    "TlsfProps.C96_too_large_refuted"
   ],
   "note": "Proved for new sizes up to 2^32-8; from 2^32-7 on the request is adjusted to zero bytes, realloc trims the block to nothing and reports success (refuted)."
  },
  {
   "property": "C97",
   "status": "proved",
   "theorems": [
    "TlsfProps.C97_gap_is_usable",
    "TlsfProps.C97_aligned_gap_is_usable",
    "TlsfProps.C97_all_freed",
    "TlsfProps.C97_unused_pool_removable"
   ],
   "note": "Same histories as C66. The slack of a thirty-second is the price of the good fit (C65)."
  },
  {
   "property": "C98",
   "status": "partial",
   "theorems": [
    "TlsfAllocProps.C98_initialize",
    "TlsfAllocProps.C98_alloc",
    "TlsfAllocProps.C98_free",
    "TlsfAllocProps.C98_free_null",
    "TlsfAllocProps.C98_validate",
    "TlsfAllocProps.C98_allocation_size",
    "TlsfAllocProps.C98_realloc_alignment_refuted",
    "TlsfAllocProps.C98_initialize_without_pool_refuted"
   ],
   "note": "alloc, free, validate_heap and get_allocation_size are proved on every reachable heap. Refuted: realloc drops the alignment; initialize reports success for buffers without room for a pool."
  },
  {
   "property": "C99",
   "status": "proved",
   "theorems": [
    "XxhProps.C99_oneshot",
    "XxhProps.C99_streaming",
    "XxhProps.C99_chunking_irrelevant",
    "XxhProps.C99_null"
   ],
   "note": "Both settings of XXH_REROLL; little endian target, XXH_ACCEPT_NULL_INPUT_POINTER off as in the header."
  },
  {
   "property": "C100",
   "status": "proved",
   "theorems": [
    "XxhProps.C100_oneshot",
    "XxhProps.C100_streaming",
    "XxhProps.C100_null"
   ],
   "note": "Streaming for fewer than 2^64 bytes in total."
  },
  {
   "property": "C101",
   "status": "proved",
   "theorems": [
    "XxhProps.C101_canonical_big_endian",
    "XxhProps.C101_read_big_endian",
    "XxhProps.C101_round_trip",
    "XxhProps.C101_canonical_unique",
    "XxhProps.C101_short_undefined"
   ],
   "note": "XXH32 and XXH64."
  },
  {
   "property": "C102",
   "status": "partial",
   "theorems": [
    "Xxh3Props.C102_make_hash",
    "Xxh3Props.C102_64bits",
    "Xxh3Props.C102_64bits_withSecret",
    "Xxh3Props.C102_128bits",
    "Xxh3Props.C102_seed_zero",
    "Xxh3Props.C102_builds_agree",
    "Xxh3Props.C102_eight_bytes_assert_refuted"
   ],
   "note": "Holds for every input when assertions are off (the default), and for every length but 8 when they are on; with DEBUGLEVEL >= 1 every 8 byte input aborts. NEON and VSX code is not modelled."
  },
  {
   "property": "C103",
   "status": "partial",
   "theorems": [
    "Xxh3Props.C103_streaming_partial",
    "Xxh3Props.C103_updates_safe",
    "Xxh3Props.C103_null",
    "Xxh3Props.C103_short_secret",
    "Xxh3Props.C103_one_update_refuted",
    "Xxh3Props.C103_three_updates_refuted"
   ],
   "note": "Holds when all chunks have at most 255 bytes, or the total is at most 240 bytes, or the total modulo 256 is 0 or at least 64. Refuted for one update of 257 bytes. Fewer than 2^64 bytes in total, secrets below 2^32 + 64 bytes."
  },
  {
   "property": "C104",
   "status": "partial",
   "theorems": [
    "Xxh3Props.C104_copy_equal",
    "Xxh3Props.C104_own_secret_independent",
    "Xxh3Props.C104_copy_while_source_lives",
    "Xxh3Props.C104_copy_refuted"
   ],
   "note": "A copy digests like its source. It is independent of the source unless the source was reset with a seed; then freeing the source makes the copy dangle and resetting the source changes the digest of the copy."
  },
  {
   "property": "C105",
   "status": "proved",
   "theorems": [
    "XxhInjectProps.C105_xxh32_word",
    "XxhInjectProps.C105_xxh32_byte",
    "XxhInjectProps.C105_xxh64_word",
    "XxhInjectProps.C105_xxh32_four",
    "XxhInjectProps.C105_xxh64_eight",
    "XxhInjectProps.C105_seeds",
    "XxhInjectProps.C105_xxh3",
    "XxhInjectProps.C105_xxh128"
   ],
   "note": "XXH3 with 64 bits: with assertions off, or lengths other than 8 (see C102)."
  },
  {
   "property": "C106",
   "status": "proved",
   "theorems": [
    "Xxh3Props.C106_isEqual",
    "Xxh3Props.C106_cmp",
    "Xxh3Props.C106_canonical",
    "Xxh3Props.C106_cmp_canonical"
   ],
   "note": "Little endian target."
  },
  {
   "property": "C107",
   "status": "proved",
   "theorems": [
    "Xxh3Props.C107_aligned"
   ],
   "note": "Alignments 8 to 128; malloc is assumed to return a block inside the address space."
  },
  {
   "property": "C108",
   "status": "partial",
   "theorems": [
    "AllocArrProps.C108_history_partial",
    "AllocArrProps.C108_same",
    "AllocArrProps.C108_resize_refuted",
    "AllocArrProps.C108_reset_refuted",
    "AllocArrProps.C108_bytes_refuted",
    "AllocArrProps.C108_uninitialized_refuted",
    "AllocArrProps.C108_defaulted_refuted",
    "AllocArrProps.C108_refused_reset_refuted"
   ],
   "note": "All histories whose byte counts do not wrap, without reset or resize from an element of the same array and without uninitialized class types; those are refuted."
  },
  {
   "property": "C109",
   "status": "partial",
   "theorems": [
    "FwdArrProps.C109_history_partial",
    "FwdArrProps.C109_balance",
    "FwdArrProps.C109_leak_refuted"
   ],
   "note": "Results and blocks for all histories; the constructors from a list or a span construct twice and leak the first elements."
  },
  {
   "property": "C110",
   "status": "partial",
   "theorems": [
    "CapArrProps.C110_history_partial",
    "CapArrProps.C110_balance",
    "CapArrProps.C110_capacity",
    "CapArrProps.C110_moved_refuted",
    "CapArrProps.C110_self_move_refuted",
    "CapArrProps.C110_emplace_refuted",
    "CapArrProps.C110_uninitialized_refuted"
   ],
   "note": "All histories without emplace of an own element; moved-from elements are never destroyed."
  },
  {
   "property": "C111",
   "status": "partial",
   "theorems": [
    "SysAllocProps.C111_history_partial",
    "SysAllocProps.C111_realloc_refuted",
    "SysAllocProps.C111_size_refuted"
   ],
   "note": "Linux build and malloc fallback, all answers of the C runtime; try_realloc of a live block without memory and wrapping sizes of the fallback are refuted. The Windows build is not modelled."
  },
  {
   "property": "C112",
   "status": "partial",
   "theorems": [
    "UFunProps.C112_history_partial",
    "UFunProps.C112_lvalue_refuted",
    "UFunProps.C112_copy_refuted",
    "UFunProps.C112_hollow_refuted"
   ],
   "note": "All histories; refuted: named callables are moved from, named unique_functions can be wrapped although copies are deleted, and a function made from an empty one is valid but refuses calls. Reentrant callables are not modelled."
  },
  {
   "property": "C113",
   "status": "partial",
   "theorems": [
    "IntsProps.C113_div_ceil",
    "IntsProps.C113_to_multiple_partial",
    "IntsProps.C113_negative_refuted",
    "IntsProps.C113_overflow_refuted"
   ],
   "note": "int_div_ceil in full for every integer type; int_ceil_to_multiple for values that are not negative and sums that do not overflow; both exceptions are refuted."
  },
  {
   "property": "C114",
   "status": "proved",
   "theorems": [
    "IntsProps.C114_order"
   ],
   "note": ""
  },
  {
   "property": "C115",
   "status": "partial",
   "theorems": [
    "IntsProps.C115_range_partial",
    "IntsProps.C115_indices",
    "IntsProps.C115_reverse_refuted",
    "IntsProps.C115_negative_refuted"
   ],
   "note": "Every integer type and every range with begin <= end; refuted: reversing a range that begins at the smallest value of a wide signed type, indices of negative numbers."
  },
  {
   "property": "C116",
   "status": "partial",
   "theorems": [
    "AlgoProps.C116_copy_partial",
    "AlgoProps.C116_overlap_refuted",
    "AlgoProps.C116_fill",
    "AlgoProps.C116_equal"
   ],
   "note": "copy unless the destination begins inside of the source (refuted); fill and comparisons in full."
  },
  {
   "property": "C117",
   "status": "proved",
   "theorems": [
    "AlgoProps.C117_any_of"
   ],
   "note": ""
  },
  {
   "property": "C118",
   "status": "partial",
   "theorems": [
    "BoxProps.C118_history_partial",
    "BoxProps.C118_destructor_refuted",
    "BoxProps.C118_own_refuted",
    "BoxProps.C118_convert_refuted"
   ],
   "note": "All histories of all kinds of boxes; refuted: derived objects in poly_box of classes without virtual destructor, assignment and emplace from the own contents, conversion of moved-from boxes. Boxes inside of boxed values are not modelled (see C58 for the same control flow)."
  },
  {
   "property": "C119",
   "status": "partial",
   "theorems": [
    "ErrMsgProps.C119_message_partial",
    "ErrMsgProps.C119_once",
    "ErrMsgProps.C119_empty",
    "ErrMsgProps.C119_outside",
    "ErrMsgProps.C119_multiline_refuted"
   ],
   "note": "All strings, messages and lists of errors whose targets lie in one line; targets of several lines are refuted: building the message fails a contract itself."
  },
  {
   "property": "C120",
   "status": "partial",
   "theorems": [
    "WatchProps.C120_history_partial",
    "WatchProps.C120_location",
    "WatchProps.C120_twice_refuted",
    "WatchProps.C120_rename_refuted"
   ],
   "note": "All histories of filewatches on unix with changes between operations. Missing: a second watch by the same path and files replaced by renaming (both refuted), changes while operations run, replaced directories."
  },
  {
   "property": "C121",
   "status": "partial",
   "theorems": [
    "CStrProps.C121_view_partial",
    "CStrProps.C121_buffer_partial",
    "CStrProps.C121_fallback",
    "CStrProps.C121_no_allocator",
    "CStrProps.C121_passed",
    "CStrProps.C121_print_partial",
    "CStrProps.C121_zero_refuted",
    "CStrProps.C121_null_refuted",
    "CStrProps.C121_misaligned_refuted"
   ],
   "note": "All views, buffers and heaps, other heap activity in between. Refuted: views with the data nullptr (memcpy from nullptr), characters behind a zero are not printed, allocators that return memory aligned for characters only."
  },
  {
   "property": "C122",
   "status": "partial",
   "theorems": [
    "TVecProps.C122_history_partial",
    "TVecProps.C122_capacity",
    "TVecProps.C122_sized_refuted",
    "TVecProps.C122_count_refuted",
    "TVecProps.C122_own_refuted"
   ],
   "note": "All histories of any number of vectors, all element sizes below 32 kB. Refuted: constructors with sizes that overflow in bytes, remove_range with counts that wrap around, push_back_range of own elements."
  },
  {
   "property": "C123",
   "status": "partial",
   "theorems": [
    "FRefProps.C123_history_partial",
    "FRefProps.C123_order",
    "FRefProps.C123_default_refuted",
    "FRefProps.C123_temporary"
   ],
   "note": "All histories of sinks, lambdas, plain functions, references and ranges. Refuted: the default constructed stream_ref calls a dead temporary. Not modelled: ranges that are dereferenced, custom invokers."
  },
  {
   "property": "C124",
   "status": "partial",
   "theorems": [
    "SyncProps.C124_linearizable",
    "SyncProps.C124_completes",
    "SyncProps.C124_virtual_blocks",
    "SyncTlsfProps.C124_tlsf_blocks",
    "SyncProps.C124_initialize_refuted",
    "SyncProps.C124_peek_refuted",
    "SyncProps.C124_size_refuted"
   ],
   "note": "Linearizability of every object behind lock_guard and spin_lock, for any number of threads and any schedule. Instances: the blocks of the virtual linear allocator, and of the tlsf allocator when threads allocate and free, also blocks of each other; realloc and queries of concurrent threads are covered by linearizability only. Refuted: initialize and get_backing do not take the lock; get_allocation_size of the synced virtual allocator is not forwarded."
  },
  {
   "property": "C125",
   "status": "partial",
   "theorems": [
    "WConvProps.C125_narrow_partial",
    "WConvProps.C125_widen_partial",
    "WConvProps.C125_round_trip",
    "WConvProps.C125_to_string_partial",
    "WConvProps.C125_to_string_refuted",
    "WConvProps.C125_quarter_refuted",
    "WConvProps.C125_reads_more_refuted",
    "WConvProps.C125_zero_refuted",
    "WConvProps.C125_null_refuted"
   ],
   "note": "All strings, destinations and counts, in a UTF-8 locale, for destinations below 2^31 elements. Refuted: to_string of wide strings cuts everything that is not ASCII; the count is divided by four in one direction and limits the output instead of the input in the other; a count of zero converts everything; a null destination reports characters that were not written."
  },
  {
   "property": "C126",
   "status": "partial",
   "theorems": [
    "SHeapProps.C126_history",
    "SHeapProps.C126_no_leak",
    "SHeapProps.C126_values",
    "SHeapProps.C126_assign_throws_refuted",
    "SHeapProps.C126_fill_throws_refuted",
    "SHeapProps.C126_short_throws_refuted"
   ],
   "note": "All histories over any number of strings that the ideal characters allow, sizes below 2^60; every history defined in SboModel.v, self-move and moved-from strings included. Refuted: when operator new throws in copy assignment or fill, the destructor deletes a deleted block."
  },
  {
   "property": "C127",
   "status": "partial",
   "theorems": [
    "AssertProps.C127_passes",
    "AssertProps.C127_sound",
    "AssertProps.C127_fails",
    "AssertProps.C127_silent",
    "AssertProps.C127_handlers",
    "AssertProps.C127_unreachable",
    "AssertProps.C127_assume_paren",
    "AssertProps.C127_assume_refuted",
    "AssertProps.C127_bounds_twice_refuted",
    "AssertProps.C127_handler_asserts_refuted",
    "AssertProps.C127_abort_refuted"
   ],
   "note": "All expressions with side effects, all switches, handlers and threads, on unix. Refuted: CC_ASSUME of gcc negates only the first operand of an expression without parentheses, so true assumptions are undefined behavior; CC_ASSERT_IN_BOUNDS evaluates its argument twice; a handler whose own check fails recurses forever; a failed check ends with SIGTRAP and never reaches abort. The Windows branches and cc::format are not modelled."
  },
  {
   "property": "C128",
   "status": "partial",
   "theorems": [
    "DeferProps.C128_finally",
    "DeferProps.C128_exactly_once",
    "DeferProps.C128_copy_refuted",
    "DeferProps.C128_discard_refuted",
    "DeferProps.C128_throw_refuted"
   ],
   "note": "All programs of the small language that do not copy deferred objects. Refuted: copying the object of CC_RETURN_DEFER runs the code twice, a call whose result is not named runs it at once, deferred code that throws terminates the program even inside of try. An exception that nobody catches is taken to unwind the stack."
  },
  {
   "property": "C129",
   "status": "partial",
   "theorems": [
    "IntrinProps.C129_counter",
    "IntrinProps.C129_tickets",
    "IntrinProps.C129_swap",
    "IntrinProps.C129_cas",
    "IntrinProps.C129_cas_result",
    "IntrinProps.C129_flags",
    "IntrinProps.C129_width",
    "IntrinProps.C129_rdtsc",
    "IntrinProps.C129_cpuid",
    "IntrinProps.C129_newton",
    "IntrinProps.C129_newton2",
    "IntrinProps.C129_newton_bound",
    "IntrinProps.C129_cpuid_refuted",
    "IntrinProps.C129_unknown_leaf_refuted"
   ],
   "note": "Every order of the operations of any number of threads; widths, values and processors arbitrary. Refuted: the feature tests shift without masking, so any higher bit counts; registers of unknown leaves are read uninitialized. The inverse square root is proved without rounding; the accuracy of the hardware estimate is not modelled."
  },
  {
   "property": "C130",
   "status": "partial",
   "theorems": [
    "PageProps.C130_prefault",
    "PageProps.C130_prefault_faults",
    "PageProps.C130_prefault_empty",
    "PageProps.C130_commit",
    "PageProps.C130_decommit",
    "PageProps.C130_recommit",
    "PageProps.C130_neighbour_refuted",
    "PageProps.C130_empty_refuted",
    "PageProps.C130_top_refuted"
   ],
   "note": "All address spaces, ranges and contents below the top of the address space (ptr + size + 8192 < 2^64). Refuted: decommitting a range that is not aligned to pages takes away bytes outside of it, an empty range takes away a page, and at the top of the address space the loop wraps around. Linux branch; pages are 4096 bytes."
  },
  {
   "property": "C131",
   "status": "partial",
   "theorems": [
    "CallProps.C131_identity",
    "CallProps.C131_projection",
    "CallProps.C131_callable",
    "CallProps.C131_member_object",
    "CallProps.C131_member_function",
    "CallProps.C131_get",
    "CallProps.C131_apply",
    "CallProps.C131_arity",
    "CallProps.C131_apply_partial",
    "CallProps.C131_get_refuted",
    "CallProps.C131_apply_refuted",
    "CallProps.C131_apply_copies_refuted",
    "CallProps.C131_overloaded",
    "CallProps.C131_overloaded_partial",
    "CallProps.C131_overloaded_refuted"
   ],
   "note": "All argument lists, parameter kinds and types, as far as they can be copied and moved. Refuted: get and apply turn the members of rvalue tuples into lvalues, so members are copied instead of moved and callables that take T&& or a move-only T do not compile; overloaded copies its functors and rejects those that can only be moved."
  },
  {
   "property": "C132",
   "status": "partial",
   "theorems": [
    "SortCostProps.C132_same",
    "SortCostProps.C132_partition_same",
    "SortCostProps.C132_is_sorted_same",
    "SortCostProps.C132_sort_worst_partial",
    "SortCostProps.C132_quickselect_worst_partial",
    "SortCostProps.C132_equal_refuted",
    "SortCostProps.C132_quickselect_equal_refuted",
    "SortCostProps.C132_nlogn_refuted",
    "SortCostProps.C132_best_refuted",
    "SortCostProps.C132_quickselect_linear_refuted",
    "SortCostProps.C132_partition_linear",
    "SortCostProps.C132_is_sorted_linear"
   ],
   "note": "All lists and strict weak orders. partition calls is_right at most n + 2 times, is_sorted compares at most n - 1 times. Refuted for sort and quickselect: n equal elements take at least n (n - 1) / 2 comparisons and n - 15 nested calls, so neither O(n log n) nor, for quickselect, O(n) holds; no long input is sorted with linearly many comparisons. Instead at most (n^2 + 27 n) / 2 comparisons are proved. Average costs are not modelled."
  },
  {
   "property": "C133",
   "status": "partial",
   "theorems": [
    "SortMultiProps.C133_one_list",
    "SortMultiProps.C133_sort_multi_partial",
    "SortMultiProps.C133_sizes",
    "SortMultiProps.C133_sort_multi_by_partial",
    "SortMultiProps.C133_sizes_by",
    "SortMultiProps.C133_twice_refuted",
    "SortMultiProps.C133_descending"
   ],
   "note": "All strict weak orders, all lists of ranges and keys. sort_multi and sort_multi_by apply the same permutation to every given range, the keys end up sorted and other ranges are untouched; unequal sizes are reported; sort_descending and sort_by_descending sort the other way round. Refuted for a range that is passed twice: it is swapped twice, stays unsorted or the partition runs out of the range. Missing: ranges that overlap without being the same."
  },
  {
   "property": "C134",
   "status": "partial",
   "theorems": [
    "GrowProps.C134_vector",
    "GrowProps.C134_push_back",
    "GrowProps.C134_stream",
    "GrowProps.C134_string_partial",
    "GrowProps.C134_string_resize_refuted",
    "GrowProps.C134_set",
    "GrowProps.C134_map"
   ],
   "note": "All histories. Over any history in which a container never holds more than m elements, the elements taken along to new storage are at most 2m for vector, sbo_string (push_back, +=, insert, replace) and string_stream (plus the room asked for), max 4 2m for set and max 8 4(m+1) for map; the number of reallocations is logarithmic. Refuted for sbo_string::resize, which goes through the exact reserve: resizing by one character at a time takes every character along every time. Missing: vector::shrink_to_fit and set::reserve within a history."
  },
  {
   "property": "C135",
   "status": "partial",
   "theorems": [
    "MpmcWeakProps.C135_linearizable",
    "MpmcWeakProps.C135_conservation",
    "MpmcWeakProps.C135_includes_sc",
    "MpmcWeakProps.C135_synchronized",
    "MpmcWeakProps.C135_message_passing",
    "MpmcWeakProps.C135_orders_needed",
    "MpmcWeakProps.C135_stale_refuted"
   ],
   "note": "All capacities 2^k, thread counts, schedules shorter than 2^62 steps and choices of what loads return, under a release/acquire memory model with histories and views. No execution has a data race on a payload or a plain store that misses a newer value; every execution is explained by atomic operations on a bounded FIFO; what happens before an enqueue happens before the return of the dequeue of its value; each of the four acquire/release annotations is needed. Refuted: without synchronization between the callers, enqueue may report a full queue although a dequeue that has already returned made room, and dequeue an empty one although an enqueue has returned. With synchronization the reports are exact (C135_synchronized). Not modelled: executions with delayed stores (promises); CC_MPMC_QUEUE_TRACK_SIZE."
  },
  {
   "property": "C136",
   "status": "partial",
   "theorems": [
    "LPoolWeakProps.C136_no_data_race",
    "LPoolWeakProps.C136_one_owner",
    "LPoolWeakProps.C136_acquired_usable",
    "LPoolWeakProps.C136_release",
    "LPoolWeakProps.C136_includes_sc",
    "LPoolWeakProps.C136_synchronized_acquire",
    "LPoolWeakProps.C136_orders_exact",
    "LPoolWeakProps.C136_is_alive_refuted",
    "LPoolWeakProps.C136_full_report_refuted"
   ],
   "note": "All pool sizes, thread counts, schedules and choices of what loads return, under a release/acquire memory model with the history of the head and views. As in C50 fewer than 2^32 changes of the head may happen during one pending acquire (the version counter must not wrap). No execution has a data race on an element or a generation, no slot has two owners, an acquired element can be used and released; exactly the combinations of orders listed in C136_orders_exact suffice. Refuted: is_alive concurrent with release of the same element is a data race on the generation; without synchronization between callers acquire may assert that the pool is full although every slot has been released. Not modelled: executions with delayed stores (promises)."
  },
  {
   "property": "C137",
   "status": "proved",
   "theorems": [
    "ALinWeakProps.C137_blocks",
    "ALinWeakProps.C137_no_data_race",
    "ALinWeakProps.C137_race",
    "ALinWeakProps.C137_reset_orders",
    "ALinWeakProps.C137_includes_sc",
    "ALinWeakProps.C137_orders_exact"
   ],
   "note": "All buffers, thread counts, sizes that do not wrap (as in C47, which refutes the others), schedules, hand-overs of blocks between threads, and resets by a thread that is ordered after the end of all calls and all uses of the blocks (C137_reset_needs_order shows that this is needed). No store of a header, no use of a block and no query of its size is a data race, what happens before a reset happens before the allocations that follow, and acquire on fetch_add and release on the store in reset are both needed and together enough. Overcommitting still stores outside of the buffer before the assertion (C47). Not modelled: allocated_size, read-only sharing of a block between threads, executions with delayed stores."
  },
  {
   "property": "C138",
   "status": "partial",
   "theorems": [
    "RangeProps.C138_push_back_range",
    "RangeProps.C138_derived_exact",
    "RangeProps.C138_push_back_range_compiles",
    "RangeProps.C138_rejects_convertible_refuted",
    "RangeProps.C138_derived_refuted",
    "RangeProps.C138_span",
    "RangeProps.C138_strided_span",
    "RangeProps.C138_span_compiles",
    "RangeProps.C138_span_refuted"
   ],
   "note": "All element types given by size, relation to T (same, derived with T at any offset, base, otherwise convertible) and const, all C arrays, contiguous containers and other ranges, all contents. Refuted: is_contiguous_range tests static_cast of the data pointer, which also accepts pointers to derived and to base classes. A span or strided_span of a base class made from a container of derived objects, and push_back_range of a non-const one, step by the size of the base class: all elements but the first are wrong unless the sizes are equal. The other direction makes overload resolution choose a constructor that fails to compile and push_back_range reject elements that convert. Proved: exactly these cases are wrong, all others are right."
  },
  {
   "property": "C139",
   "status": "partial",
   "theorems": [
    "CollProps.C139_is_range",
    "CollProps.C139_begin",
    "CollProps.C139_const_array_refuted",
    "CollProps.C139_element",
    "CollProps.C139_size",
    "CollProps.C139_fixed_size",
    "CollProps.C139_get",
    "CollProps.C139_map_indexed_refuted",
    "CollProps.C139_get_unchecked",
    "CollProps.C139_add_chosen",
    "CollProps.C139_add",
    "CollProps.C139_ways"
   ],
   "note": "All collections of the library, C arrays, const and non-const, and all user types given by the members they have. Refuted: the specialization for const cc::array<T, N> names the non-const type, so element_t is not const and collection_begin and get do not compile; every non-const map counts as an indexed range, and get(map, i) is a lookup that adds the key i. Proved: everything else is right, get of contiguous ranges is unchecked, collection_add takes the best way to add that exists. Not modelled: reference-qualified members, capacities."
  },
  {
   "property": "C140",
   "status": "proved",
   "theorems": [
    "SpinWeakProps.C140_mutual_exclusion",
    "SpinWeakProps.C140_code",
    "SpinWeakProps.C140_no_data_race",
    "SpinWeakProps.C140_race",
    "SpinWeakProps.C140_orders_exact",
    "SpinWeakProps.C140_one_thread"
   ],
   "note": "All thread counts, schedules and values of relaxed loads, with synchronization outside of the lock. Mutual exclusion holds for every choice of orders; with two or more threads the protected data is free of races exactly if lock and try_lock acquire and unlock releases, so none of the three orders can be relaxed and no other order is needed. Not modelled: executions with delayed stores."
  },
  {
   "property": "C141",
   "status": "partial",
   "theorems": [
    "PoolWeakProps.C141_no_data_race_partial",
    "PoolWeakProps.C141_one_owner_partial",
    "PoolWeakProps.C141_handed_on_partial",
    "PoolWeakProps.C141_nothing_lost_partial",
    "PoolWeakProps.C141_alloc_returns_partial",
    "PoolWeakProps.C141_blocks",
    "PoolWeakProps.C141_overlap_refuted",
    "PoolWeakProps.C141_race",
    "PoolWeakProps.C141_orders_exact"
   ],
   "note": "Proved if calls of alloc are ordered one after the other, with frees overlapping everything: no data race, one owner per block, nothing lost, and exactly two orders are needed (acquire on the load of alloc, release on the compare-exchange of free). Missing because the code violates it: overlapping allocs; one of them reads the in-place next pointer, which is not atomic, of a block that another thread already owns and writes, for every choice of orders and without any free. Not modelled: executions with delayed stores."
  },
  {
   "property": "C142",
   "status": "partial",
   "theorems": [
    "WatchThrProps.C142_safe",
    "WatchThrProps.C142_lock",
    "WatchThrProps.C142_join_partial",
    "WatchThrProps.C142_join_refuted",
    "WatchThrProps.C142_up_to_date_partial",
    "WatchThrProps.C142_handled",
    "WatchThrProps.C142_sound",
    "WatchThrProps.C142_documented_refuted",
    "WatchThrProps.C142_overflow_refuted",
    "WatchThrProps.C142_early_refuted"
   ],
   "note": "One monitor, its thread, the thread that uses filewatches and the system, in every interleaving: no data race, no access to a destroyed flag, nobody waits for the lock forever, only changed files are reported. The destructor of the last watch returns if the directory was not deleted; refuted for deleted directories (the thread reads a descriptor without watches forever). A watch that is cleared before its file is loaded is up to date once the thread is idle and nothing is reported; refuted for the documented order (load, then clear), for a full queue of the system, and for changes made before the watch. Missing: several threads that use filewatches (the list of monitors is not synchronized), weak memory, Windows."
  },
  {
   "property": "C143",
   "status": "partial",
   "theorems": [
    "LNodesProps.C143_history_partial",
    "LNodesProps.C143_balance_partial",
    "LNodesProps.C143_owned_partial",
    "LNodesProps.C143_empty_refuted",
    "LNodesProps.C143_full_refuted"
   ],
   "note": "One thread, all histories of initialize, destroy, acquire, release, iterate_allocated_nodes with visitors that acquire and release, release_all, is_full and max_size, for all sizes and traits. Assumes that the element behind the free list may be accessed (C52 refutes that it exists). Refuted for pools without nodes: is_full is false but acquire reads a null or freed free list; a pool destroyed when full stays full. Moves do not compile (std::atomic) and are not modelled."
  },
  {
   "property": "C144",
   "status": "partial",
   "theorems": [
    "KeysProps.C144_equal_hashes",
    "KeysProps.C144_sets",
    "KeysProps.C144_int_lookup",
    "KeysProps.C144_string_lookup",
    "KeysProps.C144_words_partial",
    "KeysProps.C144_index_partial",
    "KeysProps.C144_nan_refuted",
    "KeysProps.C144_view_refuted",
    "KeysProps.C144_words_refuted",
    "KeysProps.C144_float_lookup_refuted",
    "KeysProps.C144_index_refuted"
   ],
   "note": "Equal keys hash equally for all key types built from words, integers, byte structs, floats, strings, sequences, optionals, pairs and tuples, and sets of them without floats are sets; lookups by other integer types and by views find exactly the equal elements. Refuted: NaN keys, string_view keys, misaligned reads of values of more than 8 bytes, int64 sets looked up by float, map operator[] with a key that the conversion changes."
  },
  {
   "property": "C145",
   "status": "partial",
   "theorems": [
    "IdxVecProps.C145_history_partial",
    "IdxVecProps.C145_wrap_refuted",
    "IdxVecProps.C145_remove_first_refuted",
    "IdxVecProps.C145_remove_first_unordered_refuted"
   ],
   "note": "All histories and all integer index types, as long as arguments are values of the index type and, for remove_first and remove_first_unordered, the index of every element is. Refuted otherwise: arguments wrap around silently, and remove_first and remove_first_unordered convert the size_t they found to index_t and remove another element. Index types that are classes are not modelled. Shares the limits of C27 (2^48 elements)."
  },
  {
   "property": "C146",
   "status": "partial",
   "theorems": [
    "PolyProps.C146_history_partial",
    "PolyProps.C146_virtual_refuted",
    "PolyProps.C146_self_reset",
    "PolyProps.C146_two_owners"
   ],
   "note": "All hierarchies in which every class with derived classes has a virtual destructor, and all histories in which reset gets only pointers to objects that nobody owns. Refuted without the virtual destructor: nothing checks for it. Objects own no other objects (UPtrModel.v has those), pointer adjustment between base and derived class is not modelled."
  }
 ]
}
