{
 "claims": [
  {
   "property": "C01",
   "status": "proved",
   "theorems": [
    "C01_table_refines_collection",
    "C01_table_refines_collection_plain"
   ],
   "note": "Whole life of a table (construct, init, any operations, destroy) for every hash function, entry size, build mode, AllocPolicy and allocation schedule. Assertion/abort outcomes only near the capacity limit or on refused allocation."
  },
  {
   "property": "C02",
   "status": "proved",
   "theorems": [
    "C02_lookups_terminate",
    "C02_no_operation_diverges"
   ],
   "note": ""
  },
  {
   "property": "C03",
   "status": "proved",
   "theorems": [
    "C03_elements_and_iteration"
   ],
   "note": ""
  },
  {
   "property": "C04",
   "status": "proved",
   "theorems": [
    "C04_erase_while_iterating"
   ],
   "note": ""
  },
  {
   "property": "C05",
   "status": "proved",
   "theorems": [
    "C05_failed_add_keeps_heap",
    "C05_failed_add_changes_nothing"
   ],
   "note": "The table object is bit-for-bit unchanged."
  },
  {
   "property": "C06",
   "status": "proved",
   "theorems": [
    "C06_heap_faithful",
    "C06_blocks_returned",
    "C06_one_block",
    "C06_second_init_leaks",
    "C06_payload_lifetimes"
   ],
   "note": "Leak/DoubleFree/Uninit/MovedFrom are separate faults of the model; the theorem excludes all of them. Blocks: the pointer-level model of HashTableMemModel agrees with the value-level one on every result (C06_heap_faithful), owns one block at a time and returns every block exactly once. init() is assumed to be called once: C06_second_init_leaks shows what a second call does. Exceptions from payload constructors not modelled."
  },
  {
   "property": "C07",
   "status": "partial",
   "theorems": [
    "C07_failed_init_keeps_heap",
    "C07_destroy_after_failed_init_refuted",
    "C07_failed_init_partial"
   ],
   "note": "Refuted for every capacity: init() sets capacity_ before the failed allocation and ~HashTable walks a null table. Over-limit and aborting paths proved safe."
  },
  {
   "property": "C08",
   "status": "partial",
   "theorems": [
    "C08_overflow_reported_refuted",
    "C08_growth_at_the_limit_partial",
    "C08_release_never_asserts_partial"
   ],
   "note": "Refuted: grow() tests capacity_ >= kMaxCapacity, not the doubled capacity; debug asserts, release exceeds the limit. Exact behaviour at the limit proved for every reachable table."
  },
  {
   "property": "C09",
   "status": "proved",
   "theorems": [
    "C09_move_transfers"
   ],
   "note": ""
  },
  {
   "property": "C10",
   "status": "proved",
   "theorems": [
    "C10_capacity_discipline"
   ],
   "note": ""
  },
  {
   "property": "C11",
   "status": "proved",
   "theorems": [
    "C11_insert_valid_after_add",
    "C11_overwrite_is_seen"
   ],
   "note": ""
  },
  {
   "property": "C12",
   "status": "proved",
   "theorems": [
    "C12_hashmap_is_finite_map"
   ],
   "note": ""
  },
  {
   "property": "C13",
   "status": "proved",
   "theorems": [
    "C13_hashset_is_finite_set"
   ],
   "note": ""
  },
  {
   "property": "C14",
   "status": "proved",
   "theorems": [
    "C14_stream_chunk_independent",
    "C14_one_at_a_time",
    "C14_result_is_not_idempotent"
   ],
   "note": "Also: result() finalises in place and is not idempotent."
  },
  {
   "property": "C15",
   "status": "proved",
   "theorems": [
    "C15_fast_hash_is_polynomial"
   ],
   "note": ""
  },
  {
   "property": "C16",
   "status": "partial",
   "theorems": [
    "C16_HashInt32_defined_refuted",
    "C16_HashInt64_defined_refuted",
    "C16_integer_hashes_with_wrapping_partial"
   ],
   "note": "Refuted as strongly as possible: under C++17 HashInt32 is defined for exactly four of the 2^32 inputs (signed overflow), under C++20 for at most 16. With -fwrapv total."
  },
  {
   "property": "C17",
   "status": "partial",
   "theorems": [
    "C17_HashInt32_injective_refuted",
    "C17_hash_collisions_bounded_partial"
   ],
   "note": "Refuted for every input: a and ~a always collide (arithmetic right shift); at most 8 preimages per hash; the 64-bit mix is injective."
  },
  {
   "property": "C18",
   "status": "partial",
   "theorems": [
    "C18_find_bits_exact_partial",
    "C18_find_leftmost64_gcc_ilp32_refuted",
    "C18_find_leftmost64_gcc_ilp32_actual"
   ],
   "note": "Fails on GCC with 32-bit long (ILP32/MinGW): __builtin_clzl is 32 bits wide; exact result characterised. All other branches proved."
  },
  {
   "property": "C19",
   "status": "partial",
   "theorems": [
    "C19_log2_exact_partial",
    "C19_log2_gcc_64bit_refuted"
   ],
   "note": "GCC/Clang branch uses 32-bit __builtin_clz: refuted for every n >= 2^32; MSVC and n < 2^32 proved."
  },
  {
   "property": "C20",
   "status": "proved",
   "theorems": [
    "C20_is_power_of_two"
   ],
   "note": ""
  },
  {
   "property": "C21",
   "status": "proved",
   "theorems": [
    "C21_align_up",
    "C21_align_up_total"
   ],
   "note": ""
  },
  {
   "property": "C22",
   "status": "proved",
   "theorems": [
    "C22_is_aligned",
    "C22_aligned_base"
   ],
   "note": ""
  },
  {
   "property": "C23",
   "status": "proved",
   "theorems": [
    "C23_pointer_bits",
    "C23_beyond_30_undefined"
   ],
   "note": "NumBits <= 30 is exactly where the mask expression is defined; above that it is undefined behaviour (second theorem)."
  },
  {
   "property": "C24",
   "status": "partial",
   "theorems": [
    "C24_multiply_guard_partial",
    "C24_multiply_guard_refuted",
    "C24_multiply_guard_gcc64_undefined_refuted",
    "C24_guards_gcc64_verdict_refuted"
   ],
   "note": "Guard admits overflowing products (refuted with witnesses); proved: 'unsafe' is always right and 'safe' is off by less than a factor 2; on GCC 64-bit also undefined behaviour."
  },
  {
   "property": "C25",
   "status": "partial",
   "theorems": [
    "C25_add_guard_partial",
    "C25_add_guard_refuted"
   ],
   "note": "Guard always answers true: refuted; proved: no safe addition is rejected."
  },
  {
   "property": "C26",
   "status": "proved",
   "theorems": [
    "C26_try_add_exact"
   ],
   "note": ""
  },
  {
   "property": "C27",
   "status": "partial",
   "theorems": [
    "C27_try_multiply_partial",
    "C27_try_multiply_refuted"
   ],
   "note": "Wrong exactly when the product is a non-zero multiple of 2^64 (returns true with 0); characterised for all inputs."
  },
  {
   "property": "C28",
   "status": "proved",
   "theorems": [
    "C28_pops_in_priority_order"
   ],
   "note": ""
  },
  {
   "property": "C29",
   "status": "proved",
   "theorems": [
    "C29_draining_sorts"
   ],
   "note": ""
  },
  {
   "property": "C30",
   "status": "proved",
   "theorems": [
    "C30_no_moved_from_access"
   ],
   "note": "For any comparator; illegal pop/peek is characterised exactly."
  },
  {
   "property": "C31",
   "status": "proved",
   "theorems": [
    "C31_insertion_order"
   ],
   "note": ""
  },
  {
   "property": "C32",
   "status": "partial",
   "theorems": [
    "C32_length_exact_refuted",
    "C32_length_value_partial",
    "C32_length_exact_partial"
   ],
   "note": "False: removeFromParentList does not decrement the list's length. Exact value of length() proved for every history, and exactness without removeFromParentList."
  },
  {
   "property": "C33",
   "status": "partial",
   "theorems": [
    "C33_isInList_exact_refuted",
    "C33_isInList_debug_partial",
    "C33_isInList_release_partial"
   ],
   "note": "False in release builds: remove/erase leave stale links. Exact in debug builds, and in any build when nodes leave only through removeFromParentList; no false negatives ever (C31/C33 shows)."
  },
  {
   "property": "C34",
   "status": "proved",
   "theorems": [
    "C34_erase_while_iterating",
    "C34_destroy_unlinks"
   ],
   "note": ""
  },
  {
   "property": "C35",
   "status": "proved",
   "theorems": [
    "C35_refptr_lifetime",
    "C35_refptr_effect"
   ],
   "note": "All legal histories of 19 RefPtr/AlreadyRefed/raw-owner operations on arbitrary object graphs; destructor cascades modelled; both NDEBUG and debug builds."
  },
  {
   "property": "C36",
   "status": "partial",
   "theorems": [
    "C36_self_assignment_refuted",
    "C36_self_assignment_partial"
   ],
   "note": "The property is false of the code (operator= releases before it adds a reference): proved use-after-free for every reachable state with one handle; proved harmless when null or shared."
  },
  {
   "property": "C37",
   "status": "partial",
   "theorems": [
    "C37_assign_from_member_refuted",
    "C37_assign_from_member_partial"
   ],
   "note": "False of the code for a sole handle (operator= releases before reading the source): proved use-after-free for every reachable state; proved correct when the object has another handle."
  },
  {
   "property": "C38",
   "status": "proved",
   "theorems": [
    "C38_ownership_transfer",
    "C38_move_assignment",
    "C38_assign_already_refed"
   ],
   "note": "Transfers change no count; move-assignment changes counts exactly as resetting the destination to null does. Self-move leaves null (the property does not exclude it: source null)."
  },
  {
   "property": "C39",
   "status": "proved",
   "theorems": [
    "C39_threadsafe_refcount",
    "C39_last_release_deletes",
    "C39_deleted_only_unreferenced"
   ],
   "note": "Any number of threads, objects, AtomicRefs and interleavings of atomic steps (sequentially consistent), address reuse included; both NDEBUG settings."
  },
  {
   "property": "C40",
   "status": "partial",
   "theorems": [
    "C40_virtual_never_deletes_refuted",
    "C40_virtual_leak_refuted",
    "C40_virtual_counts_partial"
   ],
   "note": "False of the code: VirtualRefcountedThreadsafe::Release compares the previous count with 0, so in no legal execution is any object ever deleted (proved for all executions, plus a concrete leak). Partial: counts right, no faults."
  },
  {
   "property": "C41",
   "status": "proved",
   "theorems": [
    "C41_atomicref_no_fault",
    "C41_get_returns_live"
   ],
   "note": "Both refcount classes; sequentially consistent memory (the memory_order_release argument of the lock CAS is outside the model)."
  },
  {
   "property": "C42",
   "status": "proved",
   "theorems": [
    "C42_mutual_exclusion",
    "C42_linearizable",
    "C42_counts_at_rest"
   ],
   "note": "Mutual exclusion, linearizability as a register (invocation/effect/response formulation, per cell, between construction and destruction), exact counts at rest."
  },
  {
   "property": "C43",
   "status": "proved",
   "theorems": [
    "C43_safe_strcpy",
    "C43_safe_strcpy_null"
   ],
   "note": ""
  },
  {
   "property": "C44",
   "status": "proved",
   "theorems": [
    "C44_safe_strcat",
    "C44_safe_strcat_full"
   ],
   "note": ""
  },
  {
   "property": "C45",
   "status": "partial",
   "theorems": [
    "C45_safe_strcpyn_refuted",
    "C45_safe_strcpyn_zero_refuted",
    "C45_safe_strcpyn_no_room",
    "C45_safe_strcpyn_partial",
    "C45_safe_strcpyn_exact_partial"
   ],
   "note": "FALSE as stated: SafeStrcpyN never looks for src's terminator (reads out of bounds when n exceeds strlen+1, copies the terminator when n = strlen+1) and leaves dest untouched for n = 0; both refuted universally. Proved for 0 < n <= strlen(src), plus the exact raw-copy behaviour on every buffer."
  },
  {
   "property": "C46",
   "status": "proved",
   "theorems": [
    "C46_safe_sprintf_text",
    "C46_safe_sprintf_bounded"
   ],
   "note": ""
  },
  {
   "property": "C47",
   "status": "partial",
   "theorems": [
    "C47_string_printf_refuted",
    "C47_string_printf_partial",
    "C47_string_printf_error_partial"
   ],
   "note": "FALSE at exactly one length: a text of INT_MAX characters makes `len + 1` overflow (refuted). Proved for every shorter text and for errors in either pass, with both C99 and MSVC vsnprintf."
  },
  {
   "property": "C48",
   "status": "proved",
   "theorems": [
    "C48_join_split",
    "C48_empty_separator"
   ],
   "note": ""
  },
  {
   "property": "C49",
   "status": "partial",
   "theorems": [
    "C49_split_string_refuted",
    "C49_split_string_partial"
   ],
   "note": "FALSE for strings with an embedded NUL (refuted for every such string: the round trip returns the part before the NUL). Proved for NUL-free strings."
  },
  {
   "property": "C50",
   "status": "proved",
   "theorems": [
    "C50_split_cuts",
    "C50_splits_unique",
    "C50_pieces_without_sep",
    "C50_split_join"
   ],
   "note": ""
  },
  {
   "property": "C51",
   "status": "partial",
   "theorems": [
    "C51_join_partial",
    "C51_join_overflow_refuted"
   ],
   "note": "FALSE when the joined length does not fit size_t: the size computation wraps and Join writes out of bounds (refuted; reachable on 32-bit targets with ~1.5 MB of pieces). Proved whenever the joined length is representable."
  },
  {
   "property": "C52",
   "status": "proved",
   "theorems": [
    "C52_starts_with",
    "C52_starts_with_string",
    "C52_ends_with"
   ],
   "note": ""
  },
  {
   "property": "C53",
   "status": "partial",
   "theorems": [
    "C53_case_refuted",
    "C53_case_partial",
    "C53_case_idempotent_partial"
   ],
   "note": "FALSE where plain char is signed: bytes 0x80..0xFE are passed to toupper/tolower as negative ints (undefined; refuted for every such string). Proved for unsigned char and for ASCII (plus 0xFF) text."
  },
  {
   "property": "C54",
   "status": "proved",
   "theorems": [
    "C54_path_format",
    "C54_path_format_text"
   ],
   "note": ""
  },
  {
   "property": "C55",
   "status": "proved",
   "theorems": [
    "C55_maybe_values"
   ],
   "note": "All programs over any number of Maybe variables that never assign a variable to itself (self-assignment is C57) observe optional-value semantics, debug and NDEBUG."
  },
  {
   "property": "C56",
   "status": "partial",
   "theorems": [
    "C56_maybe_destroys_refuted",
    "C56_maybe_leaks_exactly_partial",
    "C56_maybe_destroys_partial"
   ],
   "note": "FALSE as stated: assigning to a Maybe that holds a value overwrites it without destroying it, and a moved-from Maybe never destroys its moved-from T (refuted by two programs). Proved instead for every program: nothing is destroyed twice and the number of never-destroyed T objects is exactly the number of such overwrites/moves."
  },
  {
   "property": "C57",
   "status": "partial",
   "theorems": [
    "C57_maybe_self_refuted",
    "C57_maybe_self_empties_refuted",
    "C57_maybe_self_partial"
   ],
   "note": "FALSE as stated: m = m and m = std::move(m) empty m (in every reachable state) and abandon its T; m.init(m.get()) reads a destroyed value. Only the empty Maybe survives."
  },
  {
   "property": "C58",
   "status": "proved",
   "theorems": [
    "C58_fixedarray_values",
    "C58_fixedarray_values_or_abort",
    "C58_fixedarray_at_checked",
    "C58_fixedarray_write_checked"
   ],
   "note": "All programs over any number of arrays with no self-assignment (C59) and sizes that fit size_t (C60). Alloc failure under the default policy aborts; nothing else can go wrong."
  },
  {
   "property": "C59",
   "status": "partial",
   "theorems": [
    "C59_fixedarray_leak_refuted",
    "C59_fixedarray_self_copy_refuted",
    "C59_fixedarray_self_move_refuted",
    "C59_fixedarray_leaks_exactly_partial",
    "C59_fixedarray_releases_partial"
   ],
   "note": "FALSE as stated: move-assignment over an array with storage leaks the block, self copy-assignment of a non-empty array reads destroyed elements (in every reachable state), self move-assignment empties and leaks. Proved instead: exact leak accounting for every program without self-assignment."
  },
  {
   "property": "C60",
   "status": "partial",
   "theorems": [
    "C60_fixedarray_alloc_failure_refuted",
    "C60_fixedarray_size_overflow_refuted",
    "C60_fixedarray_alloc_failure_partial"
   ],
   "note": "FALSE as stated: with a fallible policy any failed allocation of n > 0 elements makes the destructor dereference null; any sizeof(T)*n beyond size_t writes outside the block (both universal). What holds: n = 0, and abort under the default policy."
  },
  {
   "property": "C61",
   "status": "proved",
   "theorems": [
    "C61_function_calls",
    "C61_function_empty_call"
   ],
   "note": "All programs over distinct Functions, callables of any size and alignment, debug and NDEBUG; lvalue copies of an empty Function are C63, self-assignment C64. Calling an empty Function: assertion (debug) / null dereference, for every reachable state."
  },
  {
   "property": "C62",
   "status": "proved",
   "theorems": [
    "C62_function_lifetimes",
    "C62_function_inline_aligned"
   ],
   "note": "All programs without self-assignment. Lvalue copies are wrapped in a heap holder (that is what overload resolution selects), so they never report inline storage; the theorem gives the exact number of operator new calls."
  },
  {
   "property": "C63",
   "status": "partial",
   "theorems": [
    "C63_function_copy_empty_refuted",
    "C63_function_copy_empty_partial"
   ],
   "note": "FALSE as stated: copying any empty Function that is a non-const lvalue yields a set Function whose call faults (all reachable states). Const copies and moves do give an empty Function (proved, all reachable states)."
  },
  {
   "property": "C64",
   "status": "partial",
   "theorems": [
    "C64_function_self_assign_refuted",
    "C64_function_self_move_refuted",
    "C64_function_self_move_partial"
   ],
   "note": "FALSE as stated: self copy-assignment of any non-empty Function, and self move-assignment of an inline one, use a destroyed callable (all reachable states). Self move of a heap-stored or empty one empties it, without fault or leak."
  },
  {
   "property": "C65",
   "status": "partial",
   "theorems": [
    "C65_function_inline_bound_partial",
    "C65_function_inline_bound32_partial",
    "C65_function_three_words_refuted",
    "C65_function_two_words_partial"
   ],
   "note": "FALSE as stated in README on targets with word-aligned double: callables of more than two words are allocated with new because the holder's vtable pointer takes one. Exact bound proved: two words (64-bit, i386), three words where double needs two-word alignment."
  },
  {
   "property": "C66",
   "status": "proved",
   "theorems": [
    "C66_flags_operators",
    "C66_flags_compound",
    "C66_flags_tests",
    "C66_enum_operators",
    "C66_enum_comparators",
    "C66_enum_comparators_narrow"
   ],
   "note": "Every operator of Flags<T> and of KE_DEFINE_ENUM_OPERATORS, at every width and signedness of the underlying type, bit by bit; compound assignments over all histories. Enums whose underlying type is bool are excluded (promotion of ~ differs). C66_enum_comparators_narrow: KE_DEFINE_ENUM_COMPARATORS with a Type narrower than the enum equates different values (stated exactly)."
  },
  {
   "property": "C67",
   "status": "proved",
   "theorems": [
    "C67_saveandset_restores",
    "C67_saveandset_effect",
    "C67_saveandset_guarded",
    "C67_return_and_void"
   ],
   "note": "Over all well-bracketed programs of nested SaveAndSet scopes, including bodies that write the location. C67_return_and_void covers am-raii.h's ReturnAndVoid."
  },
  {
   "property": "C68",
   "status": "proved",
   "theorems": [
    "C68_scopeguard_once",
    "C68_scopeguard_count"
   ],
   "note": "All histories of construct/move/cancel/destroy; callback effect counted exactly."
  },
  {
   "property": "C69",
   "status": "proved",
   "theorems": [
    "C69_stacklinked_head",
    "C69_stacklinked_assert_exact",
    "C69_stacklinked_unnested_release"
   ],
   "note": "All nested histories; the destructor assertion is characterised exactly (fails iff destroyed out of order) and what a release build does then is a theorem."
  },
  {
   "property": "C70",
   "status": "partial",
   "theorems": [
    "C70_tls_isolates",
    "C70_tls_failed_store_is_silent_refuted"
   ],
   "note": "All thread programs and schedules, sequentially consistent. The clause 'returns the value this thread last set' additionally needs pthread_setspecific to succeed: set() ignores its result, so a failed store is silently lost (C70_tls_failed_store_is_silent_refuted)."
  },
  {
   "property": "C71",
   "status": "partial",
   "theorems": [
    "C71_first_use_race_refuted",
    "C71_failed_allocation_refuted",
    "C71_every_first_use_race_refuted",
    "C71_every_failed_allocation_refuted",
    "C71_one_key_partial",
    "C71_single_thread_partial",
    "C71_uninterrupted_allocation_partial"
   ],
   "note": "REFUTED in general: allocated_ is set by compare-and-swap before pthread_key_create runs, so a racing set()/get() uses an indeterminate key; after a failed allocate() the next allocate() returns true and later get/set/destructor use an uncreated key. Proved: at most one key is ever created, in every interleaving; while no allocation is interrupted, set()/get() of any thread are safe and get() before any allocation returns null; a single thread is safe, aborting exactly when creation fails. Both refutations also hold for all programs of the stated shape."
  },
  {
   "property": "C72",
   "status": "partial",
   "theorems": [
    "C72_trylock_refuted",
    "C72_stale_owner_refuted",
    "C72_assert_exact_partial",
    "C72_release_noop"
   ],
   "note": "REFUTED for locks taken with the inherited try_lock() (assertion fails though held) and for condition-variable waits (assertion passes though not held). Proved for all well-bracketed lock/unlock programs and schedules."
  },
  {
   "property": "C73",
   "status": "proved",
   "theorems": [
    "C73_parse_assigns",
    "C73_values_and_defaults",
    "C73_option_names",
    "C73_option_names_accepted"
   ],
   "note": "All option sets whose names are well formed and distinct, all spellings (--n=v, --n:v, --n v, -s v, -s=v, -sv, flags, --no-flags, positionals, extras), all orders."
  },
  {
   "property": "C74",
   "status": "partial",
   "theorems": [
    "C74_no_undefined_behaviour_refuted",
    "C74_only_no_prefix_partial",
    "C74_histories_partial"
   ],
   "note": "REFUTED: '--no-X' with X and no-X unknown dereferences a null option pointer, after any prefix and before any rest. Proved: from every parser state and argument vector that is the only fault; without '--no-' no history of parse/reset faults."
  },
  {
   "property": "C75",
   "status": "partial",
   "theorems": [
    "C75_accepts_exactly_partial",
    "C75_unknown_option",
    "C75_repeated_option",
    "C75_missing_value",
    "C75_value_on_flag",
    "C75_unreadable_value",
    "C75_unreadable_positional",
    "C75_extra_argument",
    "C75_missing_positional",
    "C75_malformed_accepted_refuted"
   ],
   "note": "Each listed kind of malformed input is rejected (one theorem per kind, after any well-formed prefix), and the set of accepted command lines is characterised exactly by a grammar. REFUTED for an Option<bool> with an attached non-boolean value and for integers outside int's range, which are accepted."
  },
  {
   "property": "C76",
   "status": "proved",
   "theorems": [
    "C76_order_kept",
    "C76_nothing_lost",
    "C76_plain_arguments"
   ],
   "note": "All accepted command lines."
  },
  {
   "property": "C77",
   "status": "partial",
   "theorems": [
    "C77_passthrough_exact_partial",
    "C77_passthrough_no_second_partial",
    "C77_passthrough_refuted"
   ],
   "note": "REFUTED: every further '--' after the first is dropped from passthrough_args(). Proved: everything else is kept in order (exact characterisation), so the property holds when there is no second '--'."
  },
  {
   "property": "C78",
   "status": "proved",
   "theorems": [
    "C78_stop_halts"
   ],
   "note": "All prefixes, all remaining arguments."
  },
  {
   "property": "C79",
   "status": "partial",
   "theorems": [
    "C79_reset_values_partial",
    "C79_reset_clean_partial",
    "C79_reset_after_dashes_refuted",
    "C79_reset_refuted",
    "C79_error_refuted"
   ],
   "note": "REFUTED: reset() keeps extra and passthrough arguments, the error text, and the fact that '--' was met (after which every later parse passes everything through). Proved: the option and positional values and the result after reset() are those of a fresh parser whenever '--' had not been met; a clean parser behaves as new."
  },
  {
   "property": "C80",
   "status": "partial",
   "theorems": [
    "C80_no_effect_refuted",
    "C80_bad_value_accepted_refuted",
    "C80_bool_option_partial"
   ],
   "note": "REFUTED: an Option<bool> followed by an argument that is no boolean literal has no effect, and an attached non-boolean value is accepted and ignored. Proved: as last argument it gives true; followed by or attached to a literal it gives that."
  },
  {
   "property": "C81",
   "status": "partial",
   "theorems": [
    "C81_int_exact_partial",
    "C81_int_in_range_partial",
    "C81_out_of_range_refuted"
   ],
   "note": "REFUTED outside the range of int (accepted, with strtol saturation and truncation). Proved: accepted texts are exactly blanks, sign, decimal digits; in range the value is exact."
  },
  {
   "property": "C82",
   "status": "proved",
   "theorems": [
    "C82_help_lines",
    "C82_wrapping_unique",
    "C82_usage_text",
    "C82_error_text"
   ],
   "note": "All help texts without NUL; also the complete text of usage() (banner, usage line, headings, columns) and of the error form."
  },
  {
   "property": "C83",
   "status": "partial",
   "theorems": [
    "C83_float_partial",
    "C83_float_refuted",
    "C83_double_little_endian_refuted",
    "C83_double_big_endian_refuted"
   ],
   "note": "float: true for all infinities, false for all finite values, but also true for every NaN (refuted). double: to_layout narrows to float and stores it in an 8-byte union, so on little-endian machines the result depends only on stale memory, on big-endian machines it is false for every infinity (refuted, for every rounding mode and NaN treatment; a nearest-even narrowing is exhibited)."
  },
  {
   "property": "C84",
   "status": "partial",
   "theorems": [
    "C84_modulo_c99",
    "C84_windows_float_partial",
    "C84_windows_float_refuted",
    "C84_windows_double_refuted"
   ],
   "note": "Proved for every fmod with the C99 contract (an instance, proved correct, is exhibited). Windows: float follows the documentation for every Windows fmod except finite%NaN and 0%0 (refuted); double inherits the broken IsInfinite: any x%y can come out as x (refuted). That am-float.h leaves the workaround out when it is the first header included is C124."
  },
  {
   "property": "C85",
   "status": "partial",
   "theorems": [
    "C85_duration_partial",
    "C85_duration_normalised_partial",
    "C85_duration_refuted",
    "C85_duration_domain",
    "C85_time_point",
    "C85_time_point_nanoseconds",
    "C85_epoch_value"
   ],
   "note": "Exact whenever sec*10^9 and the sum are representable; refuted for the last 0.85 s before the earliest representable instant (intermediate overflow). Truncation to the clock period and EpochValueToTimePoint proved. FormatTime wraps std::put_time and is not modelled."
  },
  {
   "property": "C86",
   "status": "proved",
   "theorems": [
    "C86_move_extend",
    "C86_pop_back",
    "C86_pop_front",
    "C86_remove_at",
    "C86_insert_at",
    "C86_insert_own_element",
    "C86_erase_if",
    "C86_domain"
   ],
   "note": "MoveExtend on two different vectors, PopBack/PopFront, RemoveAt, InsertAt/EmplaceAt (with and without reallocation, own elements included), EraseIf: exact results over cells that are live or moved-from. std::vector/std::deque members are modelled by their documented effect."
  },
  {
   "property": "C87",
   "status": "partial",
   "theorems": [
    "C87_self_extend_refuted",
    "C87_empty_partial"
   ],
   "note": "Refuted for every non-empty vector: MoveExtend(&v,&v) never returns (it runs on, or emplace_back throws). Only the empty vector survives (partial)."
  },
  {
   "property": "C88",
   "status": "proved",
   "theorems": [
    "C88_closed_exactly_once",
    "C88_all_closed",
    "C88_lookup",
    "C88_open",
    "C88_error_posix",
    "C88_error_untouched",
    "C88_error_windows"
   ],
   "note": "Any history of SharedLib constructions, Open calls (with any dlopen outcome) and RefPtr/AlreadyRefed operations, built on the refcounting model of C35: books balance, Open's exact effect, lookup only on handles not yet closed, error buffer. dlopen/dlerror/LoadLibrary are oracles."
  },
  {
   "property": "C89",
   "status": "partial",
   "theorems": [
    "C89_edits_applied_partial",
    "C89_empty_range_refuted"
   ],
   "note": "emit() applies any set of non-overlapping edits at distinct offsets (any sort result). Partial: an edit with an empty range (Replace/Remove of nothing) deletes a character anyway (C89_empty_range_refuted)."
  },
  {
   "property": "C90",
   "status": "partial",
   "theorems": [
    "C90_returns_only_if_all_applied_partial",
    "C90_debug_refuted",
    "C90_release_end_refuted",
    "C90_release_same_offset_refuted"
   ],
   "note": "Refuted: two edits at one offset, or an edit at end of text, fail the assertion in debug builds; release builds lose them silently. C90_returns_only_if_all_applied_partial says what a returning debug emit guarantees."
  },
  {
   "property": "C91",
   "status": "partial",
   "theorems": [
    "C91_system_error_partial",
    "C91_system_error_refuted"
   ],
   "note": "Holds on Windows and glibc, and for XSI strerror_r when the message fits; refuted for XSI strerror_r with ERANGE, whose result is ignored."
  },
  {
   "property": "C92",
   "status": "proved",
   "theorems": [
    "C92_threadsafe_weak_memory",
    "C92_steps_possible"
   ],
   "note": "Axiomatised operationally: histories in modification order, views as sets of events, read-modify-write atomicity, acquire/release with release sequences; seq_cst is weakened to acquire+release. No out-of-thin-air executions."
  },
  {
   "property": "C93",
   "status": "partial",
   "theorems": [
    "C93_atomicref_race_refuted",
    "C93_atomicref_safe_partial",
    "C93_looks_sequentially_consistent_partial",
    "C93_linearizable_partial"
   ],
   "note": "REFUTED for the code: the compare-exchange of lock() is release/relaxed, so after an ABA reuse of an address the locker is not ordered after the construction of the object it then AddRefs (witness execution ending in a data race). Proved: without reuse of addresses the code is safe, looks sequentially consistent and is linearizable; with an acquiring compare-exchange all of it holds unconditionally."
  },
  {
   "property": "C94",
   "status": "partial",
   "theorems": [
    "C94_only_white_space_partial",
    "C94_white_space_bytes",
    "C94_text_before_brace_refuted",
    "C94_adjacent_brace_refuted",
    "C94_empty_braces_refuted",
    "C94_initializers_refuted",
    "C94_parenthesis_in_comment_refuted"
   ],
   "note": "Proved for neat layouts (StylerSpec.v): output equals input apart from white space, literals and comments intact. Refuted otherwise, each with the exact output: text between ) and { is deleted; a brace right behind ) of a multi-line statement is deleted; {} of an empty function on its own line loses the }; with two initializers on the last line of a constructor the second is deleted; a ) in a comment is taken for the closing parenthesis."
  },
  {
   "property": "C95",
   "status": "partial",
   "theorems": [
    "C95_returns_partial",
    "C95_no_space_before_brace_refuted",
    "C95_catch_all_refuted"
   ],
   "note": "Proved for neat layouts. Refuted: f(){ in the first column fails an assertion (debug) or never returns (release); catch (...) dereferences null."
  },
  {
   "property": "C96",
   "status": "proved",
   "theorems": [
    "C96_file",
    "C96_nothing_asked",
    "C96_statement_brace",
    "C96_no_parenthesis",
    "C96_function_brace",
    "C96_empty_function",
    "C96_first_column_meaning",
    "C96_same_line_meaning"
   ],
   "note": "C96_file: on any neat source with any number of nodes the output is the text with exactly the edits the rules ask for (StylerRules.v), all of them and no others; C96_nothing_asked: if the rules ask for nothing, the file stays as it is. The other theorems give the exact output of one statement or function without the neatness hypothesis on the rest of the file."
  },
  {
   "property": "C97",
   "status": "partial",
   "theorems": [
    "C97_statement_partial",
    "C97_function_partial",
    "C97_empty_function_refuted"
   ],
   "note": "Proved for statements and for functions with a non-empty body. Refuted for an empty member function with a multi-line prototype: the third run deletes its closing brace."
  },
  {
   "property": "C98",
   "status": "partial",
   "theorems": [
    "C98_failure_leaves_file_partial",
    "C98_print_only",
    "C98_success_partial",
    "C98_crash_refuted",
    "C98_full_disk_refuted",
    "C98_all_files"
   ],
   "note": "Failure leaves the file, printing touches nothing, uninterrupted success writes the new text, all files are handled. Refuted: every in-place run passes through an empty file (crash loses the source); write errors are reported as success."
  },
  {
   "property": "C99",
   "status": "partial",
   "theorems": [
    "C99_white_space_bytes",
    "C99_search_paths_partial",
    "C99_long_line_refuted",
    "C99_popen_refuted"
   ],
   "note": "Proved for lines of at most 1022 characters and a compiler that starts. Refuted: longer lines are split into two paths; a failing popen() is a null dereference."
  },
  {
   "property": "C100",
   "status": "proved",
   "theorems": [
    "C100_fair_completion",
    "C100_no_other_waiting"
   ],
   "note": "Sequentially consistent interleavings of the atomic steps (the weak-memory model is in the Weak* files); turns of idle threads do nothing."
  },
  {
   "property": "C101",
   "status": "partial",
   "theorems": [
    "C101_suspended_thread_blocks_refuted",
    "C101_starvation_refuted"
   ],
   "note": "Refuted: AtomicRef is a spin lock. A thread suspended between lock() and unlock() blocks every other operation on the cell for ever, and a waiting operation may starve even under a fair scheduler. What holds instead is C100."
  },
  {
   "property": "C102",
   "status": "partial",
   "theorems": [
    "C102_storage_buffer_partial",
    "C102_maybe_partial",
    "C102_storage_buffer_refuted",
    "C102_maybe_refuted",
    "C102_function_inline",
    "C102_hash_entries_partial",
    "C102_fixed_array_partial",
    "C102_over_aligned_refuted"
   ],
   "note": "Full for Function's inline storage. StorageBuffer and Maybe are right for types that need no more alignment than uint64_t and wrong for all others (C102_storage_buffer_refuted, C102_maybe_refuted); hash tables and FixedArray are right up to malloc's alignment and wrong above (C102_over_aligned_refuted). Struct layout by the usual ABI rules (fields in order, padded to their alignment)."
  },
  {
   "property": "C103",
   "status": "proved",
   "theorems": [
    "C103_posix_queries",
    "C103_windows_queries"
   ],
   "note": "File system model: inodes, directories with rights, symbolic links (at most 40 followed), special files. Trailing slashes and limits on names are not modelled."
  },
  {
   "property": "C104",
   "status": "partial",
   "theorems": [
    "C104_true_created",
    "C104_false_nothing",
    "C104_when",
    "C104_one_winner",
    "C104_absent_not_creatable_refuted"
   ],
   "note": "Partial: that an absent path with a changeable parent and room can be created fails for dangling links (C104_absent_not_creatable_refuted); all else is proved (POSIX; the Windows call is one system call without logic)."
  },
  {
   "property": "C105",
   "status": "partial",
   "theorems": [
    "C105_runs_once_partial",
    "C105_only_started_threads",
    "C105_nested_bind_refuted",
    "C105_long_name_refuted",
    "C105_invalid_name_refuted"
   ],
   "note": "Partial: fails for nested bind expressions as arguments (C105_nested_bind_refuted), for names over 15 characters on Linux (C105_long_name_refuted) and for names that are not UTF-8 on Windows, which end the process (C105_invalid_name_refuted). std::bind and std::thread as the standard says; from_bytes is a parameter."
  },
  {
   "property": "C106",
   "status": "partial",
   "theorems": [
    "C106_names_partial",
    "C106_nothing_else",
    "C106_too_long_refuted",
    "C106_macos_other_refuted",
    "C106_exception_exact",
    "C106_leaked_reference_refuted"
   ],
   "note": "Partial: names too long for the system are dropped silently, macOS cannot name another thread, and on Windows a reference to kernel32.dll is leaked on every call without SetThreadDescription or with a name that is not UTF-8."
  },
  {
   "property": "C107",
   "status": "partial",
   "theorems": [
    "C107_overloads_agree_partial",
    "C107_from_main_partial",
    "C107_no_arguments_partial",
    "C107_embedded_nul_refuted",
    "C107_unterminated"
   ],
   "note": "REFUTED for a std::string with an embedded NUL (cut there, for every position and parser). Proved: all overloads agree for every parser state and arguments without NUL; argc 0 and 1; an unterminated parsev() list is read past its end."
  },
  {
   "property": "C108",
   "status": "proved",
   "theorems": [
    "C108_registration",
    "C108_registration_unique",
    "C108_first_registered_wins"
   ],
   "note": "All histories. Where names coincide: proved for toggle and stop options under their long names."
  },
  {
   "property": "C109",
   "status": "partial",
   "theorems": [
    "C109_no_interference_partial",
    "C109_statics_shared_refuted"
   ],
   "note": "REFUTED for static options, which are shared by all parsers (already specified, reset). Proved: a parser constructed before any static option exists behaves as it would alone, in every history."
  },
  {
   "property": "C110",
   "status": "partial",
   "theorems": [
    "C110_destructors_end",
    "C110_layered_ends_partial",
    "C110_termination_refuted",
    "C110_fuel_partial",
    "C110_copy_during_destruction_refuted",
    "C110_reset_during_destruction_refuted",
    "C110_store_during_destruction_refuted",
    "C110_source_changed_refuted",
    "C110_raw_source_refuted",
    "C110_member_refuted",
    "C110_reentrant_destructors_partial",
    "C110_held_partial",
    "C110_layered_partial"
   ],
   "note": "Refuted: every operator = and the destructor call Release() while thing_ still holds the old pointer, so a destructor that finds that RefPtr again copies a dying object (second destruction), trips the assertion in Release() (debug), or stores an object that is then overwritten (leak, release); a = b reads b after the Release. Proved: without such uses, for all destructor bodies and programs, no fault and balanced books; a static discipline of ranks and levels that excludes them. Termination (ReEnd*.v): programs whose destructors create only objects of classes of lower rank always end, and with the discipline they end in balance; without that restriction even a layered program can run for ever."
  },
  {
   "property": "C111",
   "status": "partial",
   "theorems": [
    "C111_rejection_explained_partial",
    "C111_unknown_option_partial",
    "C111_repeated_option_partial",
    "C111_missing_value_partial",
    "C111_bad_value_partial",
    "C111_value_on_flag_partial",
    "C111_positionals_partial",
    "C111_extra_argument_partial",
    "C111_accepted_silent_partial",
    "C111_help_word_hides_error_refuted",
    "C111_stale_error_refuted"
   ],
   "note": "REFUTED: with '-h' or '--help' anywhere among the arguments (also as an option's value or behind '--') the reason is not shown, and usage() after a later accepted command line shows an old error. Proved: otherwise every rejection is reported with the exact text, kind by kind, and every message names an argument given or an option known."
  },
  {
   "property": "C112",
   "status": "partial",
   "theorems": [
    "C112_combine_keeps_second_refuted",
    "C112_combine_collisions_partial"
   ],
   "note": "False for every first hash: the code shifts `second` where the usual formula shifts `first`, so second hashes 0 and 3435973837 always collide. Proved: the exact value, the exact collision condition, no three-way collisions, and injectivity below four fifths of the range."
  },
  {
   "property": "C113",
   "status": "proved",
   "theorems": [
    "C113_resize_work_is_linear",
    "C113_resize_policy",
    "C113_resize_happens"
   ],
   "note": "Cost is counted in slots: each resize costs the old plus the new capacity, so the bound covers the scan of the old block and the clearing of the new one; probing within a lookup is not part of it (it depends on the hash function)."
  },
  {
   "property": "C114",
   "status": "proved",
   "theorems": [
    "C114_is_aligned",
    "C114_zero_alignment",
    "C114_most_negative",
    "C114_only_fault",
    "C114_array_length",
    "C114_array_length_of_pointer",
    "C114_memset_zero"
   ],
   "note": "IS_ALIGNED is exact precisely for powers of two; alignments 0 and the most negative value are characterised; ARRAY_LENGTH given a pointer is characterised. MemsetZero is modelled as memset on bytes; am-utility.h does not itself include <string.h>, which is outside the model."
  },
  {
   "property": "C115",
   "status": "partial",
   "theorems": [
    "C115_thread_local_values_partial",
    "C115_cast_to_pointer_partial",
    "C115_wide_values_refuted"
   ],
   "note": "REFUTED for 64-bit integers on a 32-bit platform (exactly the values outside 0..2^32-1 change). Proved, with the exact condition, for types no wider than a pointer."
  },
  {
   "property": "C116",
   "status": "partial",
   "theorems": [
    "C116_ranked_programs_partial",
    "C116_replaced_by_destructor_refuted",
    "C116_called_by_destructor_refuted",
    "C116_self_clear_refuted",
    "C116_one_shot"
   ],
   "note": "REFUTED for destructors that replace or call the Function that is getting rid of them (double destruction, call on a dying object: destroy() runs before impl_ changes), and for callables that empty their own Function and then use their captures. Proved in full (termination, no fault, same behaviour as the ideal program, exactly-once destruction) under a ranking discipline: code of a callable uses only Functions of lower rank. Functions captured by callables are C127. Missing: constructors that run client code, exceptions."
  },
  {
   "property": "C117",
   "status": "proved",
   "theorems": [
    "C117_never_undefined",
    "C117_mutual_exclusion",
    "C117_no_deadlock"
   ],
   "note": "std::mutex is trusted to be a lock; the model covers the owner bookkeeping around it."
  },
  {
   "property": "C118",
   "status": "proved",
   "theorems": [
    "C118_any_policy",
    "C118_nothing_lost"
   ],
   "note": "C118_any_policy: any history, each call with its own hash/matches; outcome is a bag run, or out of memory / capacity limit as in C01. C118_nothing_lost: an only-adding history iterates exactly what was reported as added. Within one call the answers are those of one function (said in HashRobustModel.v)."
  },
  {
   "property": "C119",
   "status": "partial",
   "theorems": [
    "C119_alias_partial",
    "C119_resizing_add_refuted"
   ],
   "note": "True for HashMap (it builds the entry before touching the table). REFUTED for HashTable and HashSet: add() resizes and frees the old block before it reads its argument, so it reads freed memory exactly when the add changes the size of the table; C119_alias_partial shows they agree in all other cases."
  },
  {
   "property": "C120",
   "status": "partial",
   "theorems": [
    "C120_hashtable",
    "C120_tables_partial",
    "C120_allocPolicy_refuted",
    "C120_fixedarray_refuted",
    "C120_blocks_go_back_partial",
    "C120_moved_array_refuted",
    "C120_move_assigned_array_refuted"
   ],
   "note": "HashTable: proved in full (C120_hashtable). HashMap and HashSet ask the right policy (C120_tables_partial), but allocPolicy() returns an unused default-constructed base class: REFUTED for every run. FixedArray ignores its AllocPolicy argument, and a moved FixedArray returns its block to another policy object than it came from: REFUTED. C120_blocks_go_back_partial: without moves of FixedArrays every block returns to its policy."
  },
  {
   "property": "C121",
   "status": "partial",
   "theorems": [
    "C121_ranked_destructors_partial",
    "C121_own_lookup_refuted",
    "C121_own_remove_refuted",
    "C121_nested_clear_refuted",
    "C121_clear_hides_elements_refuted",
    "C121_destructor_lookup_refuted",
    "C121_nested_add_refuted"
   ],
   "note": "True for destructors that look up or remove elements of strictly lower rank, when the table is emptied with clear() before it is destroyed (C121_ranked_destructors_partial: exact for nested removals; inside clear() each element is destroyed once and only elements still present are found). REFUTED otherwise: an element's own destructor still finds and counts it, removing itself or calling clear() destroys it twice, an addition that grows the table destroys it twice; inside clear() lookups may miss elements that are still there; inside ~HashTable lookups read destroyed payloads; an addition inside clear() leaves an element in a table whose elements() is 0. Not modelled: destructors of moved-from payloads that use the table."
  },
  {
   "property": "C122",
   "status": "proved",
   "theorems": [
    "C122_iterators_follow_their_nodes"
   ],
   "note": "Incrementing an iterator that denotes a list's end (which the circular links make wrap around) and iterators of a node that is in no list are outside the specification."
  },
  {
   "property": "C123",
   "status": "partial",
   "theorems": [
    "C123_destruction_unnoticed_partial",
    "C123_reset_refuted",
    "C123_parse_refuted",
    "C123_positional_refuted",
    "C123_new_parser_refuted",
    "C123_usage_positional_refuted",
    "C123_usage_refuted"
   ],
   "note": "Proved: in every program that calls parse()/reset() only while the parser and all options it knows exist, and constructs parsers only while all static options exist, destructions in any order change nothing (same results, same values, same outcome). Refuted in general: no destructor unregisters an option, so reset(), parse() of an unknown option or of a command line short of a positional, and the construction of a new parser touch destroyed options (use after free). usage() is included: its usage line reads every positional, and when help was asked for it reads every option, so it too touches destroyed options."
  },
  {
   "property": "C124",
   "status": "partial",
   "theorems": [
    "C124_include_order_partial",
    "C124_any_two_units_partial",
    "C124_float_refuted",
    "C124_system_errors_refuted"
   ],
   "note": "Violated on Windows for am-float.h, am-string.h and os/am-system-errors.h, which test KE_WINDOWS without (or before) including am-platform.h: included first, am-float.h leaves out the workaround that FloatModulo needs there (am-float.h:125-132), for every Windows environment (C124_float_refuted), and os/am-system-errors.h calls FormatMessageA without <Windows.h> (C124_system_errors_refuted). C124_include_order_partial and C124_any_two_units_partial: the property for every include sequence, of all headers on every other system and of the other 35 headers on Windows."
  },
  {
   "property": "C125",
   "status": "proved",
   "theorems": [
    "C125_platform_macros",
    "C125_one_family"
   ],
   "note": "Proved for every environment and every unit."
  },
  {
   "property": "C126",
   "status": "partial",
   "theorems": [
    "C126_compilers_partial",
    "C126_rejected",
    "C126_apple_refuted"
   ],
   "note": "Violated for Apple's clang: am-cxx.h:37 tests clang_major__ instead of __clang_major__, so Apple's versions are never translated; Apple clang 4.0 (clang 3.1) is accepted and KE_CLANG_MAJOR is 4 (C126_apple_refuted). C126_compilers_partial and C126_rejected: exactly which units are rejected, the numbers of clang taken at face value."
  },
  {
   "property": "C127",
   "status": "partial",
   "theorems": [
    "C127_captured_functions_are_values_partial",
    "C127_assign_from_own_capture_refuted",
    "C127_copy_into_own_capture_refuted",
    "C127_move_into_own_capture_refuted"
   ],
   "note": "Fails when one of the two Functions is inside the other: operator = destroys the target before it reads the source. f = (a Function f's callable captures), the linked-list step head = next, reads the deleted holder; copying f over itself or over one of its captures that is not empty reads what was just destroyed; std::move(f) into one of its captures makes a holder that owns itself and is never freed (the three refuted theorems, for every program that reaches such a statement). Proved for programs that assign between unrelated Functions, or copy into an empty one, capturing any. Callables run no commands of their own here (C107 and FnReenter have that); arguments and results are left out."
  },
  {
   "property": "C128",
   "status": "proved",
   "theorems": [
    "C128_count_does_not_wrap",
    "C128_fewer_places_than_counts",
    "C128_unrecorded_references_wrap",
    "C128_reentrant_destructors",
    "C128_temporaries_wrap"
   ],
   "note": "Every RefPtr, AlreadyRefed or owned raw pointer is a pointer-sized object of its own, so on a machine whose count is as wide as its addresses there are always fewer places than counts. With destructors that run client code (the programs of C110) the condition is that no increment reaches 2^width, as reported by an observer of the run, instead of a bound on places; 2^width temporary RefPtrs on one object show it is sharp."
  },
  {
   "property": "C129",
   "status": "proved",
   "theorems": [
    "C129_any_comparator",
    "C129_logarithmic",
    "C129_sorting",
    "C129_bounds_attained",
    "C129_same_queue"
   ],
   "note": "The growth of the std::vector underneath, and the moves of items it makes, are not counted."
  },
  {
   "property": "C130",
   "status": "partial",
   "theorems": [
    "C130_maybe_exceptions_refuted",
    "C130_every_failed_init_refuted",
    "C130_maybe_exceptions_partial",
    "C130_maybe_exceptions_release_partial"
   ],
   "note": "Refuted as stated: init() over a value destroys it and leaves initialized_ true when the new T's constructor throws, so the old T is destroyed again (in every state: C130_every_failed_init_refuted). Proved for every program without that event: all other throws leave exactly the expected meaning and leak nothing. Self-assignment and init from the variable's own value are left out (C55 has them)."
  },
  {
   "property": "C131",
   "status": "partial",
   "theorems": [
    "C131_fixedarray_ctor_leaks_refuted",
    "C131_fixedarray_assign_refuted",
    "C131_fixedarray_exceptions_partial"
   ],
   "note": "Refuted as stated: a constructor that throws leaks its block and the elements built; a copy assignment that throws leaves an array whose destructor destroys elements never built (every such assignment after every program: C131_fixedarray_assign_refuted). Proved for programs without a throwing copy assignment, with the exact list of leaks. Allocation failure is in C60, not combined with exceptions."
  },
  {
   "property": "C132",
   "status": "partial",
   "theorems": [
    "C132_function_assign_refuted",
    "C132_function_exceptions_partial",
    "C132_heap_moves_never_throw"
   ],
   "note": "Refuted as stated: an assignment whose construction throws leaves impl_ pointing to the callable already destroyed, or to a buffer never filled (every bad assignment after every program). Proved for programs without a bad assignment: constructors of every kind, Functions or large callables assigned to empty Functions, all moves of large callables. Sources of copies are const Functions."
  },
  {
   "property": "C133",
   "status": "partial",
   "theorems": [
    "C133_add_exception_refuted",
    "C133_resize_exception_refuted",
    "C133_entry_exceptions_partial",
    "C133_entry_exception_changes_nothing",
    "C133_resize_without_exception"
   ],
   "note": "Refuted as stated: a throw inside HashTable::add leaves an entry counted and found with no payload in it, and a throw inside a resize leaves a half-filled new table and leaks the old one (every reachable table, every such call). Proved: exceptions while HashMap::add builds its Entry leave the map unchanged, in every program. Hashes and comparisons that throw: C136. Destructors that throw are not modelled."
  },
  {
   "property": "C134",
   "status": "partial",
   "theorems": [
    "C134_add_exception_refuted",
    "C134_every_add_can_throw",
    "C134_exceptions_partial",
    "C134_pop_exception_loses_the_top",
    "C134_without_exceptions"
   ],
   "note": "Refuted as stated: an add whose comparison throws loses the item and leaves a moved-from item in the queue (after every history); a pop that throws loses the item it would have returned. Proved: until an add throws nothing faults and the queue is a bag; after a throwing pop the order is not promised. Moves of T do not throw."
  },
  {
   "property": "C135",
   "status": "proved",
   "theorems": [
    "C135_count_does_not_wrap",
    "C135_memory_bounds_references",
    "C135_more_references_delete_early"
   ],
   "note": "The clients' obligations are those of C39-C42. The bound is sharp: with 2^w + 1 references one release deletes the object under the other 2^w (C135_more_references_delete_early); AddRef has no check. Covers RefcountedThreadsafe and (as far as C40 goes) VirtualRefcountedThreadsafe."
  },
  {
   "property": "C136",
   "status": "proved",
   "theorems": [
    "C136_policy_with_state",
    "C136_throw_changes_nothing"
   ],
   "note": "C118 for policies with state (its simplification 'one function per call' is gone) and exceptions. The policy does not call back into the table (HashReenter*.v has destructors that do)."
  },
  {
   "property": "C137",
   "status": "partial",
   "theorems": [
    "C137_guards_once",
    "C137_save_restores",
    "C137_save_restores_exception",
    "C137_strong_restores",
    "C137_save_exception_refuted",
    "C137_guard_exception_refuted",
    "C137_guard_move_refuted",
    "C137_constructor_refuted",
    "C137_no_exceptions",
    "C137_only_those_terminate",
    "C137_return_and_void",
    "C137_return_and_void_refuted"
   ],
   "note": "Proved: whatever throws, a program that is in control after its scopes has run or cancelled each guard exactly once and has no guard left; SaveAndSet restores its location on every exit except that of its own constructor, and with a T whose failed assignments change nothing, on that one too; where no copy and no callback throws, nothing is terminated; ReturnAndVoid is all or nothing when its return value is elided. Refuted: a copy back or a callback that throws in a destructor, or a callback whose move throws (noexcept constructor), terminates the program whatever handlers there are; a failed assignment in SaveAndSet's constructor stays although the old value was saved; ReturnAndVoid loses the value when the move of an unelided return value throws."
  },
  {
   "property": "C138",
   "status": "partial",
   "theorems": [
    "C138_add_exception_refuted",
    "C138_order_refuted",
    "C138_pop_exception_refuted",
    "C138_exceptions_partial",
    "C138_without_exceptions",
    "C138_throws_iff_a_move_throws",
    "C138_histories_partial"
   ],
   "note": "Refuted: any add to a queue with items whose third move throws (there always is one) loses the new item and leaves a moved-from item in the queue; if the second throws, add() throws but the item is in the queue, in last place whatever its priority; a pop whose second move throws loses the item and leaves a moved-from item in first place. Proved: on a queue without moved-from items no call faults, a call that does not throw is that of the queue of C28, a call throws exactly when one of its moves does, and then loses at most the item added, or the item to be returned and one more; in every history, all results up to the first call that throws are in priority order. A failed move is taken to change nothing."
  }
 ]
}