# A Rocq (Coq 8.16.1) model of alliedmodders/amtl

This file is written by `scripts/gen_design.py` from `scripts/design_head.md`, `scripts/design_tail.md`,
`properties.jsonl` and `MANIFEST.json`.

## Method

AMTL is a header-only C++ library.  The source is read as text and transcribed, function by
function, into executable Gallina.  Every model definition cites the file and lines it models and
states any simplification.  Conventions:

* **Undefined behaviour, assertion failure, abort and leaks are outcomes**, not assumptions:
  `Base.outcome A := Ok a | Fault f | Diverge`.  A null dereference, out-of-range access, use of a
  freed or unconstructed object, signed overflow, bad shift, data race, failed `assert` (debug
  builds) and `abort()` are distinct `fault`s.  Loops whose termination is not structural run on fuel
  and give `Diverge` when it is exhausted; theorems exclude it.
* **Machine integers** are `N`/`Z` with an explicit `mod 2^w` wherever the C++ type wraps.
* **Build modes** (`NDEBUG`, compiler, data model LP64/ILP32/MSVC, char signedness, byte order,
  platform) are parameters where the code branches on them.
* **External code** (malloc, vsnprintf, dlopen, pthread_key_create, fmod, the scheduler) is an oracle
  argument quantified over in the theorems, restricted only by its documented contract.  Where a
  contract is assumed, an instance that meets it is exhibited.
* **Concurrency** is an interleaving of atomic steps, sequentially consistent (C39-C42, C70-C72); for
  the reference counts and AtomicRef also the C++11 memory model (C92-C93).
* Each area `X` has `XModel.v` (transcription), `XSpec.v` (the small independent specification the
  statements use), `XProofs.v` (lemmas) and `XProps.v` (the property theorems, each with
  `Print Assumptions` and concrete non-vacuity `Example`s).
* A property that the code violates is stated in full, refuted by a theorem `…_refuted` (universal
  where possible, otherwise a witness run of the model), and accompanied by the strongest true version
  `…_partial`.

## Trusted base

* Coq 8.16.1's kernel (`vm_compute` is used in examples and a few finite case analyses; no
  `native_compute`), the Coq standard library, coq_makefile/make.
* Axioms: **none**.  `Print Assumptions` answers "Closed under the global context" for every theorem in
  MANIFEST.json.  (A scan of the loaded libraries lists seven opaque constants of `Coq.ssr.ssrunder`,
  which come with the standard library's plugin files and which no theorem here uses.)
* No Admitted, no functors, no module types, no `Declare Module`, no plugins, no kernel flags.
* The faithfulness of the transcription: each model definition against the C++ lines it cites.
* The informal reading of the C++ standard that decides which operations are faults.
* That the `XSpec.v` definitions and the theorem statements say what properties.jsonl says.

## Per property
Status and theorem names are those of MANIFEST.json; `_refuted` theorems show that the code violates the property as stated, `_partial` ones are what holds of it.
* **C01 Hash table refines an abstract collection** — proved. Files: HashTable*.v, HashMap*.v. Model and proof: slot array (hash word, optional payload), linear probing on fuel, allocation oracle, handles as slot indices; representation invariant and refinement of every operation to a collection of payloads, induction on histories from construction to destruction. Theorems: `C01_table_refines_collection`, `C01_table_refines_collection_plain`. Whole life of a table (construct, init, any operations, destroy) for every hash function, entry size, build mode, AllocPolicy and allocation schedule. Assertion/abort outcomes only near the capacity limit or on refused allocation.
* **C02 Every lookup terminates** — proved. Files: HashTable*.v, HashMap*.v. Model and proof: invariant 'at least one free slot' bounds every probe, so the fuel never runs out. Theorems: `C02_lookups_terminate`, `C02_no_operation_diverges`.
* **C03 elements() and iteration are exact** — proved. Files: HashTable*.v, HashMap*.v. Model and proof: elements() and the slots visited by iteration compared with the abstract collection. Theorems: `C03_elements_and_iteration`.
* **C04 Erasing while iterating** — proved. Files: HashTable*.v, HashMap*.v. Model and proof: erase through an iterator, by induction on the rest of the table. Theorems: `C04_erase_while_iterating`.
* **C05 A failed add changes nothing** — proved. Files: HashTable*.v, HashMap*.v. Model and proof: failed add: the resulting table equals the original one. Theorems: `C05_failed_add_keeps_heap`, `C05_failed_add_changes_nothing`. The table object is bit-for-bit unchanged.
* **C06 Payload and block lifetimes** — proved. Files: HashTable*.v, HashMap*.v. Model and proof: each slot carries a construct/destroy state; double destruction, leak, use of raw or moved-from storage are faults excluded along every history; the table pointer and the heap blocks are modelled again in HashTableMem*.v, shown to follow the first model step by step, and the block ledger is an invariant. Theorems: `C06_heap_faithful`, `C06_blocks_returned`, `C06_one_block`, `C06_second_init_leaks`, `C06_payload_lifetimes`. Leak/DoubleFree/Uninit/MovedFrom are separate faults of the model; the theorem excludes all of them. Blocks: the pointer-level model of HashTableMemModel agrees with the value-level one on every result (C06_heap_faithful), owns one block at a time and returns every block exactly once. init() is assumed to be called once: C06_second_init_leaks shows what a second call does. Exceptions from payload constructors not modelled.
* **C07 A table whose init() failed can be destroyed** — partial. Files: HashTable*.v, HashMap*.v. Model and proof: init with a refusing allocator and the destructor that follows: refutation for every capacity, plus the safe paths. Theorems: `C07_failed_init_keeps_heap`, `C07_destroy_after_failed_init_refuted`, `C07_failed_init_partial`. Refuted for every capacity: init() sets capacity_ before the failed allocation and ~HashTable walks a null table. Over-limit and aborting paths proved safe.
* **C08 Capacity overflow is reported, not asserted** — partial. Files: HashTable*.v, HashMap*.v. Model and proof: the add that meets the capacity limit, exactly; refutation with a table at the limit. Theorems: `C08_overflow_reported_refuted`, `C08_growth_at_the_limit_partial`, `C08_release_never_asserts_partial`. Refuted: grow() tests capacity_ >= kMaxCapacity, not the doubled capacity; debug asserts, release exceeds the limit. Exact behaviour at the limit proved for every reachable table.
* **C09 Move construction transfers the table** — proved. Files: HashTable*.v, HashMap*.v. Model and proof: move construction as state transfer, destroyed source included. Theorems: `C09_move_transfers`.
* **C10 Capacity discipline** — proved. Files: HashTable*.v, HashMap*.v. Model and proof: capacity stays a power of two, growth/shrink thresholds from the invariant. Theorems: `C10_capacity_discipline`.
* **C11 The Insert object stays valid after add()** — proved. Files: HashTable*.v, HashMap*.v. Model and proof: position of the inserted entry after add() and possible growth. Theorems: `C11_insert_valid_after_add`, `C11_overwrite_is_seen`.
* **C12 HashMap is a finite map** — proved. Files: HashTable*.v, HashMap*.v. Model and proof: the same refinement at HashMap's policy: finite map, for every key policy. Theorems: `C12_hashmap_is_finite_map`.
* **C13 HashSet is a finite set** — proved. Files: HashTable*.v, HashMap*.v. Model and proof: same for HashSet. Theorems: `C13_hashset_is_finite_set`.
* **C14 Stream hashing is chunk-independent** — proved. Files: HashFn*.v. Model and proof: 32/64-bit words, the incremental hashers as state machines; induction on the byte stream cut arbitrarily. Theorems: `C14_stream_chunk_independent`, `C14_one_at_a_time`, `C14_result_is_not_idempotent`. Also: result() finalises in place and is not idempotent.
* **C15 FastHashCharSequence is the base-65599 polynomial hash** — proved. Files: HashFn*.v. Model and proof: induction on strings. Theorems: `C15_fast_hash_is_polynomial`.
* **C16 Integer hashing has no undefined behaviour** — partial. Files: HashFn*.v. Model and proof: strict signed semantics (overflow is a fault) beside the wrapping one; all inputs. Theorems: `C16_HashInt32_defined_refuted`, `C16_HashInt64_defined_refuted`, `C16_integer_hashes_with_wrapping_partial`. Refuted as strongly as possible: under C++17 HashInt32 is defined for exactly four of the 2^32 inputs (signed overflow), under C++20 for at most 16. With -fwrapv total.
* **C17 HashInt32 separates distinct integers** — partial. Files: HashFn*.v. Model and proof: algebra of xor, shift and add: an explicit collision for every input, preimage bound, injectivity of the 64-bit mix. Theorems: `C17_HashInt32_injective_refuted`, `C17_hash_collisions_bounded_partial`. Refuted for every input: a and ~a always collide (arithmetic right shift); at most 8 preimages per hash; the 64-bit mix is injective.
* **C18 FindLeftmostBit32/64 and FindRightmostBit are exact** — partial. Files: Bits*.v. Model and proof: N.log2 specification, one branch per compiler/data model. Theorems: `C18_find_bits_exact_partial`, `C18_find_leftmost64_gcc_ilp32_refuted`, `C18_find_leftmost64_gcc_ilp32_actual`. Fails on GCC with 32-bit long (ILP32/MinGW): __builtin_clzl is 32 bits wide; exact result characterised. All other branches proved.
* **C19 Log2 is the floor of the base-2 logarithm** — partial. Files: Bits*.v. Model and proof: same; exact result where the 32-bit builtin is used. Theorems: `C19_log2_exact_partial`, `C19_log2_gcc_64bit_refuted`. GCC/Clang branch uses 32-bit __builtin_clz: refuted for every n >= 2^32; MSVC and n < 2^32 proved.
* **C20 IsPowerOfTwo is exact** — proved. Files: Bits*.v. Model and proof: testbit lemmas. Theorems: `C20_is_power_of_two`.
* **C21 Align rounds up to the next multiple** — proved. Files: Bits*.v. Model and proof: div/mod algebra, overflow of the addition included. Theorems: `C21_align_up`, `C21_align_up_total`.
* **C22 IsAligned / AlignedBase agree with arithmetic** — proved. Files: Bits*.v. Model and proof: div/mod algebra. Theorems: `C22_is_aligned`, `C22_aligned_base`.
* **C23 Pointer tag bits round-trip** — proved. Files: Bits*.v. Model and proof: shift expression with its width, tag/untag on testbit. Theorems: `C23_pointer_bits`, `C23_beyond_30_undefined`. NumBits <= 30 is exactly where the mask expression is defined; above that it is undefined behaviour (second theorem).
* **C24 Multiply-overflow guard is sound** — partial. Files: Bits*.v. Model and proof: guard expression transcribed, soundness and completeness separated. Theorems: `C24_multiply_guard_partial`, `C24_multiply_guard_refuted`, `C24_multiply_guard_gcc64_undefined_refuted`, `C24_guards_gcc64_verdict_refuted`. Guard admits overflowing products (refuted with witnesses); proved: 'unsafe' is always right and 'safe' is off by less than a factor 2; on GCC 64-bit also undefined behaviour.
* **C25 Add-overflow guard is sound** — partial. Files: Bits*.v. Model and proof: same. Theorems: `C25_add_guard_partial`, `C25_add_guard_refuted`. Guard always answers true: refuted; proved: no safe addition is rejected.
* **C26 TryUint32Add / TryUint64Add are exact** — proved. Files: Bits*.v. Model and proof: full case analysis. Theorems: `C26_try_add_exact`.
* **C27 TryUint64Multiply is exact** — partial. Files: Bits*.v. Model and proof: exact characterisation for all inputs. Theorems: `C27_try_multiply_partial`, `C27_try_multiply_refuted`. Wrong exactly when the product is a non-zero multiple of 2^64 (returns true with 0); characterised for all inputs.
* **C28 PriorityQueue pops in priority order** — proved. Files: PQModel.v, PQSpec.v, PQProofs.v, PQProps.v. Model and proof: vector of cells (live/moved-from), sift loops; heap invariant and permutation by induction on histories. Theorems: `C28_pops_in_priority_order`.
* **C29 Draining a PriorityQueue sorts** — proved. Files: PQModel.v, PQSpec.v, PQProofs.v, PQProps.v. Model and proof: corollary: drained sequence is sorted and a permutation. Theorems: `C29_draining_sorts`.
* **C30 PriorityQueue never uses moved-from or out-of-range elements** — proved. Files: PQModel.v, PQSpec.v, PQProofs.v, PQProps.v. Model and proof: moved-from or missing cells are faults; partial operations characterised. Theorems: `C30_no_moved_from_access`. For any comparator; illegal pop/peek is characterised exactly.
* **C31 InlineList keeps insertion order** — proved. Files: InlineList*.v. Model and proof: store of nodes with next/prev, several lists as disjoint circular segments; refinement to sequences over all histories. Theorems: `C31_insertion_order`.
* **C32 InlineList::length() is exact** — partial. Files: InlineList*.v. Model and proof: counter compared with the refined sequence: exact value for every history. Theorems: `C32_length_exact_refuted`, `C32_length_value_partial`, `C32_length_exact_partial`. False: removeFromParentList does not decrement the list's length. Exact value of length() proved for every history, and exactness without removeFromParentList.
* **C33 isInList() is exact** — partial. Files: InlineList*.v. Model and proof: link fields after each way of leaving a list. Theorems: `C33_isInList_exact_refuted`, `C33_isInList_debug_partial`, `C33_isInList_release_partial`. False in release builds: remove/erase leave stale links. Exact in debug builds, and in any build when nodes leave only through removeFromParentList; no false negatives ever (C31/C33 shows).
* **C34 Erase-while-iterating and destructor unlinking** — proved. Files: InlineList*.v. Model and proof: iteration with removal of the current node; node destructors. Theorems: `C34_erase_while_iterating`, `C34_destroy_unlinks`.
* **C35 RefPtr keeps objects alive exactly as long as referenced** — proved. Files: Refcount*.v. Model and proof: heap of counted objects owning other objects, 19 client operations, destructor cascade as a worklist on fuel; counting invariant over the pending worklist. Theorems: `C35_refptr_lifetime`, `C35_refptr_effect`. All legal histories of 19 RefPtr/AlreadyRefed/raw-owner operations on arbitrary object graphs; destructor cascades modelled; both NDEBUG and debug builds.
* **C36 Self-assignment of RefPtr is harmless** — partial. Files: Refcount*.v. Model and proof: universal use-after-free theorem for sole handles. Theorems: `C36_self_assignment_refuted`, `C36_self_assignment_partial`. The property is false of the code (operator= releases before it adds a reference): proved use-after-free for every reachable state with one handle; proved harmless when null or shared.
* **C37 Assigning from a member of the held object is safe** — partial. Files: Refcount*.v. Model and proof: same for move from an owned field. Theorems: `C37_assign_from_member_refuted`, `C37_assign_from_member_partial`. False of the code for a sole handle (operator= releases before reading the source): proved use-after-free for every reachable state; proved correct when the object has another handle.
* **C38 Ownership transfer does not change counts** — proved. Files: Refcount*.v. Model and proof: count differences. Theorems: `C38_ownership_transfer`, `C38_move_assignment`, `C38_assign_already_refed`. Transfers change no count; move-assignment changes counts exactly as resetting the destination to null does. Self-move leaves null (the property does not exclude it: source null).
* **C39 RefcountedThreadsafe deletes once under any interleaving** — proved. Files: AtomicRef*.v. Model and proof: one thread = a program counter between atomic steps; all interleavings; inductive counting invariant. Theorems: `C39_threadsafe_refcount`, `C39_last_release_deletes`, `C39_deleted_only_unreferenced`. Any number of threads, objects, AtomicRefs and interleavings of atomic steps (sequentially consistent), address reuse included; both NDEBUG settings.
* **C40 VirtualRefcountedThreadsafe deletes on last release** — partial. Files: AtomicRef*.v. Model and proof: Virtual variant of the same machine. Theorems: `C40_virtual_never_deletes_refuted`, `C40_virtual_leak_refuted`, `C40_virtual_counts_partial`. False of the code: VirtualRefcountedThreadsafe::Release compares the previous count with 0, so in no legal execution is any object ever deleted (proved for all executions, plus a concrete leak). Partial: counts right, no faults.
* **C41 AtomicRef never yields a dead object** — proved. Files: AtomicRef*.v. Model and proof: same invariant, get() result. Theorems: `C41_atomicref_no_fault`, `C41_get_returns_live`. Both refcount classes; sequentially consistent memory (the memory_order_release argument of the lock CAS is outside the model).
* **C42 AtomicRef is linearizable as an atomic register** — proved. Files: AtomicRef*.v. Model and proof: simulation with explicit linearization points. Theorems: `C42_mutual_exclusion`, `C42_linearizable`, `C42_counts_at_rest`. Mutual exclusion, linearizability as a register (invocation/effect/response formulation, per cell, between construction and destruction), exact counts at rest.
* **C43 SafeStrcpy truncates, terminates and stays in bounds** — proved. Files: Str*.v. Model and proof: byte buffers with bounds, out-of-bounds access is a fault; loop invariants. Theorems: `C43_safe_strcpy`, `C43_safe_strcpy_null`.
* **C44 SafeStrcat truncates, terminates and stays in bounds** — proved. Files: Str*.v. Model and proof: same. Theorems: `C44_safe_strcat`, `C44_safe_strcat_full`.
* **C45 SafeStrcpyN copies at most n characters of the string** — partial. Files: Str*.v. Model and proof: same; reads beyond the terminator characterised. Theorems: `C45_safe_strcpyn_refuted`, `C45_safe_strcpyn_zero_refuted`, `C45_safe_strcpyn_no_room`, `C45_safe_strcpyn_partial`, `C45_safe_strcpyn_exact_partial`. FALSE as stated: SafeStrcpyN never looks for src's terminator (reads out of bounds when n exceeds strlen+1, copies the terminator when n = strlen+1) and leaves dest untouched for n = 0; both refuted universally. Proved for 0 < n <= strlen(src), plus the exact raw-copy behaviour on every buffer.
* **C46 SafeSprintf is bounded and terminated** — proved. Files: Str*.v. Model and proof: vsnprintf as an oracle with its C99 or MSVC contract. Theorems: `C46_safe_sprintf_text`, `C46_safe_sprintf_bounded`.
* **C47 StringPrintf returns exactly the formatted text** — partial. Files: Str*.v. Model and proof: same, two passes over the va_list. Theorems: `C47_string_printf_refuted`, `C47_string_printf_partial`, `C47_string_printf_error_partial`. FALSE at exactly one length: a text of INT_MAX characters makes `len + 1` overflow (refuted). Proved for every shorter text and for errors in either pass, with both C99 and MSVC vsnprintf.
* **C48 Join inverts Split** — proved. Files: Str*.v. Model and proof: Split/Join by list induction. Theorems: `C48_join_split`, `C48_empty_separator`.
* **C49 Split(const std::string&) round-trips too** — partial. Files: Str*.v. Model and proof: same through c_str(). Theorems: `C49_split_string_refuted`, `C49_split_string_partial`. FALSE for strings with an embedded NUL (refuted for every such string: the round trip returns the part before the NUL). Proved for NUL-free strings.
* **C50 Split is the leftmost greedy split** — proved. Files: Str*.v. Model and proof: leftmost-greedy specification, uniqueness. Theorems: `C50_split_cuts`, `C50_splits_unique`, `C50_pieces_without_sep`, `C50_split_join`.
* **C51 Join concatenates with separators in bounds** — partial. Files: Str*.v. Model and proof: size_t arithmetic explicit. Theorems: `C51_join_partial`, `C51_join_overflow_refuted`. FALSE when the joined length does not fit size_t: the size computation wraps and Join writes out of bounds (refuted; reachable on 32-bit targets with ~1.5 MB of pieces). Proved whenever the joined length is representable.
* **C52 StartsWith / EndsWith are exact** — proved. Files: Str*.v. Model and proof: list induction. Theorems: `C52_starts_with`, `C52_starts_with_string`, `C52_ends_with`.
* **C53 Uppercase / Lowercase are total and idempotent** — partial. Files: Str*.v. Model and proof: char signedness a parameter, toupper/tolower domain checked. Theorems: `C53_case_refuted`, `C53_case_partial`, `C53_case_idempotent_partial`. FALSE where plain char is signed: bytes 0x80..0xFE are passed to toupper/tolower as negative ints (undefined; refuted for every such string). Proved for unsigned char and for ASCII (plus 0xFF) text.
* **C54 path::Format normalises separators** — proved. Files: Str*.v. Model and proof: list induction, both platforms. Theorems: `C54_path_format`, `C54_path_format_text`.
* **C55 Maybe has value semantics** — proved. Files: Maybe*.v, FixedArray*.v. Model and proof: variables with raw storage and a ledger of constructed/destroyed objects; refinement to option for every program. Theorems: `C55_maybe_values`. All programs over any number of Maybe variables that never assign a variable to itself (self-assignment is C57) observe optional-value semantics, debug and NDEBUG.
* **C56 Maybe destroys what it constructs** — partial. Files: Maybe*.v, FixedArray*.v. Model and proof: ledger accounting. Theorems: `C56_maybe_destroys_refuted`, `C56_maybe_leaks_exactly_partial`, `C56_maybe_destroys_partial`. FALSE as stated: assigning to a Maybe that holds a value overwrites it without destroying it, and a moved-from Maybe never destroys its moved-from T (refuted by two programs). Proved instead for every program: nothing is destroyed twice and the number of never-destroyed T objects is exactly the number of such overwrites/moves.
* **C57 Maybe self-assignment keeps the value** — partial. Files: Maybe*.v, FixedArray*.v. Model and proof: universal counterexamples in every reachable state. Theorems: `C57_maybe_self_refuted`, `C57_maybe_self_empties_refuted`, `C57_maybe_self_partial`. FALSE as stated: m = m and m = std::move(m) empty m (in every reachable state) and abandon its T; m.init(m.get()) reads a destroyed value. Only the empty Maybe survives.
* **C58 FixedArray holds what it was given** — proved. Files: Maybe*.v, FixedArray*.v. Model and proof: blocks with element states, allocator oracle; refinement to lists. Theorems: `C58_fixedarray_values`, `C58_fixedarray_values_or_abort`, `C58_fixedarray_at_checked`, `C58_fixedarray_write_checked`. All programs over any number of arrays with no self-assignment (C59) and sizes that fit size_t (C60). Alloc failure under the default policy aborts; nothing else can go wrong.
* **C59 FixedArray never leaks or double frees** — partial. Files: Maybe*.v, FixedArray*.v. Model and proof: leak accounting. Theorems: `C59_fixedarray_leak_refuted`, `C59_fixedarray_self_copy_refuted`, `C59_fixedarray_self_move_refuted`, `C59_fixedarray_leaks_exactly_partial`, `C59_fixedarray_releases_partial`. FALSE as stated: move-assignment over an array with storage leaks the block, self copy-assignment of a non-empty array reads destroyed elements (in every reachable state), self move-assignment empties and leaks. Proved instead: exact leak accounting for every program without self-assignment.
* **C60 FixedArray tolerates allocation failure and size overflow** — partial. Files: Maybe*.v, FixedArray*.v. Model and proof: failing allocator and size overflow, universal. Theorems: `C60_fixedarray_alloc_failure_refuted`, `C60_fixedarray_size_overflow_refuted`, `C60_fixedarray_alloc_failure_partial`. FALSE as stated: with a fallible policy any failed allocation of n > 0 elements makes the destructor dereference null; any sizeof(T)*n beyond size_t writes outside the block (both universal). What holds: n = 0, and abort under the default policy.
* **C61 Function calls what was stored** — proved. Files: Function*.v. Model and proof: holders inline or on the heap, overload resolution as distinct operations, callables of any size/alignment; refinement over programs. Theorems: `C61_function_calls`, `C61_function_empty_call`. All programs over distinct Functions, callables of any size and alignment, debug and NDEBUG; lvalue copies of an empty Function are C63, self-assignment C64. Calling an empty Function: assertion (debug) / null dereference, for every reachable state.
* **C62 Function lifetimes and inline storage** — proved. Files: Function*.v. Model and proof: operator new count and live-object ledger. Theorems: `C62_function_lifetimes`, `C62_function_inline_aligned`. All programs without self-assignment. Lvalue copies are wrapped in a heap holder (that is what overload resolution selects), so they never report inline storage; the theorem gives the exact number of operator new calls.
* **C63 Copying an empty Function gives an empty Function** — partial. Files: Function*.v. Model and proof: universal over reachable states. Theorems: `C63_function_copy_empty_refuted`, `C63_function_copy_empty_partial`. FALSE as stated: copying any empty Function that is a non-const lvalue yields a set Function whose call faults (all reachable states). Const copies and moves do give an empty Function (proved, all reachable states).
* **C64 Function self-assignment is harmless** — partial. Files: Function*.v. Model and proof: universal over reachable states. Theorems: `C64_function_self_assign_refuted`, `C64_function_self_move_refuted`, `C64_function_self_move_partial`. FALSE as stated: self copy-assignment of any non-empty Function, and self move-assignment of an inline one, use a destroyed callable (all reachable states). Self move of a heap-stored or empty one empties it, without fault or leak.
* **C65 Callables of up to three words are stored inline (README)** — partial. Files: Function*.v. Model and proof: size/alignment arithmetic. Theorems: `C65_function_inline_bound_partial`, `C65_function_inline_bound32_partial`, `C65_function_three_words_refuted`, `C65_function_two_words_partial`. FALSE as stated in README on targets with word-aligned double: callables of more than two words are allocated with new because the holder's vtable pointer takes one. Exact bound proved: two words (64-bit, i386), three words where double needs two-word alignment.
* **C66 Flags are bit sets** — proved. Files: Flags*.v, Raii*.v. Model and proof: bit vectors at every width; testbit extensionality. Theorems: `C66_flags_operators`, `C66_flags_compound`, `C66_flags_tests`, `C66_enum_operators`, `C66_enum_comparators`, `C66_enum_comparators_narrow`. Every operator of Flags<T> and of KE_DEFINE_ENUM_OPERATORS, at every width and signedness of the underlying type, bit by bit; compound assignments over all histories. Enums whose underlying type is bool are excluded (promotion of ~ differs). C66_enum_comparators_narrow: KE_DEFINE_ENUM_COMPARATORS with a Type narrower than the enum equates different values (stated exactly).
* **C67 SaveAndSet restores** — proved. Files: Flags*.v, Raii*.v. Model and proof: nested scopes as trees, induction. Theorems: `C67_saveandset_restores`, `C67_saveandset_effect`, `C67_saveandset_guarded`, `C67_return_and_void`. Over all well-bracketed programs of nested SaveAndSet scopes, including bodies that write the location. C67_return_and_void covers am-raii.h's ReturnAndVoid.
* **C68 ScopeGuard runs its callback exactly once unless cancelled** — proved. Files: Flags*.v, Raii*.v. Model and proof: guards as histories. Theorems: `C68_scopeguard_once`, `C68_scopeguard_count`. All histories of construct/move/cancel/destroy; callback effect counted exactly.
* **C69 StackLinked maintains the list head** — proved. Files: Flags*.v, Raii*.v. Model and proof: list of guarded scopes, destructor order explicit. Theorems: `C69_stacklinked_head`, `C69_stacklinked_assert_exact`, `C69_stacklinked_unnested_release`. All nested histories; the destructor assertion is characterised exactly (fails iff destroyed out of order) and what a release build does then is a theorem.
* **C70 ThreadLocal isolates threads** — partial. Files: Sync*.v. Model and proof: step machine for ThreadLocal over pthread keys; all schedules. Theorems: `C70_tls_isolates`, `C70_tls_failed_store_is_silent_refuted`. All thread programs and schedules, sequentially consistent. The clause 'returns the value this thread last set' additionally needs pthread_setspecific to succeed: set() ignores its result, so a failed store is silently lost (C70_tls_failed_store_is_silent_refuted).
* **C71 Concurrent first use of ThreadLocal is safe** — partial. Files: Sync*.v. Model and proof: same machine with the allocation race; `undisturbed` executions for the partial result. Theorems: `C71_first_use_race_refuted`, `C71_failed_allocation_refuted`, `C71_every_first_use_race_refuted`, `C71_every_failed_allocation_refuted`, `C71_one_key_partial`, `C71_single_thread_partial`, `C71_uninterrupted_allocation_partial`. REFUTED in general: allocated_ is set by compare-and-swap before pthread_key_create runs, so a racing set()/get() uses an indeterminate key; after a failed allocate() the next allocate() returns true and later get/set/destructor use an uncreated key. Proved: at most one key is ever created, in every interleaving; while no allocation is interrupted, set()/get() of any thread are safe and get() before any allocation returns null; a single thread is safe, aborting exactly when creation fails. Both refutations also hold for all programs of the stated shape.
* **C72 Mutex ownership assertion is exact** — partial. Files: Sync*.v. Model and proof: mutex with owner field and native lock; all schedules. Theorems: `C72_trylock_refuted`, `C72_stale_owner_refuted`, `C72_assert_exact_partial`, `C72_release_noop`. REFUTED for locks taken with the inherited try_lock() (assertion fails though held) and for condition-variable waits (assertion passes though not held). Proved for all well-bracketed lock/unlock programs and schedules.
* **C73 Argument parsing assigns exactly the given values** — proved. Files: Arg*.v, Usage*.v. Model and proof: parse_impl on C strings, option objects as typed slots; grammar of spellings as a separate specification; induction on the argument vector. Theorems: `C73_parse_assigns`, `C73_values_and_defaults`, `C73_option_names`, `C73_option_names_accepted`. All option sets whose names are well formed and distinct, all spellings (--n=v, --n:v, --n v, -s v, -s=v, -sv, flags, --no-flags, positionals, extras), all orders.
* **C74 Parsing is free of undefined behaviour** — partial. Files: Arg*.v, Usage*.v. Model and proof: every parser state and argument vector, fault analysis. Theorems: `C74_no_undefined_behaviour_refuted`, `C74_only_no_prefix_partial`, `C74_histories_partial`. REFUTED: '--no-X' with X and no-X unknown dereferences a null option pointer, after any prefix and before any rest. Proved: from every parser state and argument vector that is the only fault; without '--no-' no history of parse/reset faults.
* **C75 Malformed command lines are rejected** — partial. Files: Arg*.v, Usage*.v. Model and proof: one theorem per kind of malformed input plus an exact grammar of acceptance. Theorems: `C75_accepts_exactly_partial`, `C75_unknown_option`, `C75_repeated_option`, `C75_missing_value`, `C75_value_on_flag`, `C75_unreadable_value`, `C75_unreadable_positional`, `C75_extra_argument`, `C75_missing_positional`, `C75_malformed_accepted_refuted`. Each listed kind of malformed input is rejected (one theorem per kind, after any well-formed prefix), and the set of accepted command lines is characterised exactly by a grammar. REFUTED for an Option<bool> with an attached non-boolean value and for integers outside int's range, which are accepted.
* **C76 Extra and positional arguments keep their order** — proved. Files: Arg*.v, Usage*.v. Model and proof: both directions over accepted lines. Theorems: `C76_order_kept`, `C76_nothing_lost`, `C76_plain_arguments`. All accepted command lines.
* **C77 Everything after -- is passed through** — partial. Files: Arg*.v, Usage*.v. Model and proof: exact passthrough list. Theorems: `C77_passthrough_exact_partial`, `C77_passthrough_no_second_partial`, `C77_passthrough_refuted`. REFUTED: every further '--' after the first is dropped from passthrough_args(). Proved: everything else is kept in order (exact characterisation), so the property holds when there is no second '--'.
* **C78 A stop option halts parsing** — proved. Files: Arg*.v, Usage*.v. Model and proof: stop option after any prefix. Theorems: `C78_stop_halts`. All prefixes, all remaining arguments.
* **C79 reset() restores the initial state** — partial. Files: Arg*.v, Usage*.v. Model and proof: two parses in sequence from arbitrary states. Theorems: `C79_reset_values_partial`, `C79_reset_clean_partial`, `C79_reset_after_dashes_refuted`, `C79_reset_refuted`, `C79_error_refuted`. REFUTED: reset() keeps extra and passthrough arguments, the error text, and the fact that '--' was met (after which every later parse passes everything through). Proved: the option and positional values and the result after reset() are those of a fresh parser whenever '--' had not been met; a clean parser behaves as new.
* **C80 Boolean options given on the command line take effect** — partial. Files: Arg*.v, Usage*.v. Model and proof: bool option cases. Theorems: `C80_no_effect_refuted`, `C80_bad_value_accepted_refuted`, `C80_bool_option_partial`. REFUTED: an Option<bool> followed by an argument that is no boolean literal has no effect, and an attached non-boolean value is accepted and ignored. Proved: as last argument it gives true; followed by or attached to a literal it gives that.
* **C81 Integer options are exact** — partial. Files: Arg*.v, Usage*.v. Model and proof: strtol transcribed. Theorems: `C81_int_exact_partial`, `C81_int_in_range_partial`, `C81_out_of_range_refuted`. REFUTED outside the range of int (accepted, with strtol saturation and truncation). Proved: accepted texts are exactly blanks, sign, decimal digits; in range the value is exact.
* **C82 Usage text wraps without losing words** — proved. Files: Arg*.v, Usage*.v. Model and proof: layout function on words and lines; usage text as an exact string. Theorems: `C82_help_lines`, `C82_wrapping_unique`, `C82_usage_text`, `C82_error_text`. All help texts without NUL; also the complete text of usage() (banner, usage line, headings, columns) and of the error form.
* **C83 IsInfinite is true exactly for infinities** — partial. Files: Float*.v, Time*.v. Model and proof: IEEE bit patterns, union in memory with byte order. Theorems: `C83_float_partial`, `C83_float_refuted`, `C83_double_little_endian_refuted`, `C83_double_big_endian_refuted`. float: true for all infinities, false for all finite values, but also true for every NaN (refuted). double: to_layout narrows to float and stores it in an 8-byte union, so on little-endian machines the result depends only on stale memory, on big-endian machines it is false for every infinity (refuted, for every rounding mode and NaN treatment; a nearest-even narrowing is exhibited).
* **C84 FloatModulo follows its documented special cases** — partial. Files: Float*.v, Time*.v. Model and proof: fmod as an oracle with the C99 contract, an instance exhibited. Theorems: `C84_modulo_c99`, `C84_windows_float_partial`, `C84_windows_float_refuted`, `C84_windows_double_refuted`. Proved for every fmod with the C99 contract (an instance, proved correct, is exhibited). Windows: float follows the documentation for every Windows fmod except finite%NaN and 0%0 (refuted); double inherits the broken IsInfinite: any x%y can come out as x (refuted). That am-float.h leaves the workaround out when it is the first header included is C124.
* **C85 Timespec conversion is exact** — partial. Files: Float*.v, Time*.v. Model and proof: Z with 64-bit range checks. Theorems: `C85_duration_partial`, `C85_duration_normalised_partial`, `C85_duration_refuted`, `C85_duration_domain`, `C85_time_point`, `C85_time_point_nanoseconds`, `C85_epoch_value`. Exact whenever sec*10^9 and the sum are representable; refuted for the last 0.85 s before the earliest representable instant (intermediate overflow). Truncation to the clock period and EpochValueToTimePoint proved. FormatTime wraps std::put_time and is not modelled.
* **C86 Vector and deque helpers are exact** — proved. Files: Vec*.v, SharedLib*.v. Model and proof: lists of live/moved-from cells. Theorems: `C86_move_extend`, `C86_pop_back`, `C86_pop_front`, `C86_remove_at`, `C86_insert_at`, `C86_insert_own_element`, `C86_erase_if`, `C86_domain`. MoveExtend on two different vectors, PopBack/PopFront, RemoveAt, InsertAt/EmplaceAt (with and without reallocation, own elements included), EraseIf: exact results over cells that are live or moved-from. std::vector/std::deque members are modelled by their documented effect.
* **C87 MoveExtend with dest == src terminates** — partial. Files: Vec*.v, SharedLib*.v. Model and proof: same, aliasing arguments. Theorems: `C87_self_extend_refuted`, `C87_empty_partial`. Refuted for every non-empty vector: MoveExtend(&v,&v) never returns (it runs on, or emplace_back throws). Only the empty vector survives (partial).
* **C88 SharedLib closes every library exactly once** — proved. Files: Vec*.v, SharedLib*.v. Model and proof: refcount model of C35 with a log of dlopen/dlclose. Theorems: `C88_closed_exactly_once`, `C88_all_closed`, `C88_lookup`, `C88_open`, `C88_error_posix`, `C88_error_untouched`, `C88_error_windows`. Any history of SharedLib constructions, Open calls (with any dlopen outcome) and RefPtr/AlreadyRefed operations, built on the refcounting model of C35: books balance, Open's exact effect, lookup only on handles not yet closed, error buffer. dlopen/dlerror/LoadLibrary are oracles.
* **C89 TextRewriter applies edits faithfully** — partial. Files: Rewrite*.v, SharedLib*.v. Model and proof: text and edit deque, sort as any permutation that is ordered. Theorems: `C89_edits_applied_partial`, `C89_empty_range_refuted`. emit() applies any set of non-overlapping edits at distinct offsets (any sort result). Partial: an edit with an empty range (Replace/Remove of nothing) deletes a character anyway (C89_empty_range_refuted).
* **C90 TextRewriter accepts several edits at one position or at end of text** — partial. Files: Rewrite*.v, SharedLib*.v. Model and proof: same. Theorems: `C90_returns_only_if_all_applied_partial`, `C90_debug_refuted`, `C90_release_end_refuted`, `C90_release_same_offset_refuted`. Refuted: two edits at one offset, or an edit at end of text, fail the assertion in debug builds; release builds lose them silently. C90_returns_only_if_all_applied_partial says what a returning debug emit guarantees.
* **C91 FormatSystemError always terminates its buffer** — partial. Files: Rewrite*.v, SharedLib*.v. Model and proof: error buffer with the XSI/GNU/Windows variants. Theorems: `C91_system_error_partial`, `C91_system_error_refuted`. Holds on Windows and glibc, and for XSI strerror_r when the message fits; refuted for XSI strerror_r with ERANGE, whose result is ignored.
* **C92 Thread-safe reference counting is safe on weakly ordered hardware** — proved. Files: Weak*.v. Model and proof: operational C++11 memory model (histories, views, release/acquire, RMW atomicity); simulation into the sequentially consistent machine of C39, so its invariant transfers. Theorems: `C92_threadsafe_weak_memory`, `C92_steps_possible`. Axiomatised operationally: histories in modification order, views as sets of events, read-modify-write atomicity, acquire/release with release sequences; seq_cst is weakened to acquire+release. No out-of-thin-air executions.
* **C93 AtomicRef is safe and linearizable on weakly ordered hardware** — partial. Files: Weak*.v. Model and proof: same; witness for the release-only compare-exchange. Theorems: `C93_atomicref_race_refuted`, `C93_atomicref_safe_partial`, `C93_looks_sequentially_consistent_partial`, `C93_linearizable_partial`. REFUTED for the code: the compare-exchange of lock() is release/relaxed, so after an ABA reuse of an address the locker is not ordered after the construction of the object it then AddRefs (witness execution ending in a data race). Proved: without reuse of addresses the code is safe, looks sequentially consistent and is linearizable; with an acquiring compare-exchange all of it holds unconditionally.
* **C94 Restyling changes only white space** — partial. Files: Styler*.v. Model and proof: text as bytes, clang's lexer and syntax tree as inputs; visitors shown to register edits that only replace white space, then C89. Theorems: `C94_only_white_space_partial`, `C94_white_space_bytes`, `C94_text_before_brace_refuted`, `C94_adjacent_brace_refuted`, `C94_empty_braces_refuted`, `C94_initializers_refuted`, `C94_parenthesis_in_comment_refuted`. Proved for neat layouts (StylerSpec.v): output equals input apart from white space, literals and comments intact. Refuted otherwise, each with the exact output: text between ) and { is deleted; a brace right behind ) of a multi-line statement is deleted; {} of an empty function on its own line loses the }; with two initializers on the last line of a constructor the second is deleted; a ) in a comment is taken for the closing parenthesis.
* **C95 The restyler returns on every source** — partial. Files: Styler*.v. Model and proof: same edits, fuel-independent; witnesses for the asserting and looping layouts. Theorems: `C95_returns_partial`, `C95_no_space_before_brace_refuted`, `C95_catch_all_refuted`. Proved for neat layouts. Refuted: f(){ in the first column fails an assertion (debug) or never returns (release); catch (...) dereferences null.
* **C96 The restyler applies its documented rules, and only then** — proved. Files: Styler*.v. Model and proof: rules stated as the set of edits they ask for; visitors shown to register exactly that set on any neat file, then C89; exact output text for one node, indentation specified by line starts. Theorems: `C96_file`, `C96_nothing_asked`, `C96_statement_brace`, `C96_no_parenthesis`, `C96_function_brace`, `C96_empty_function`, `C96_first_column_meaning`, `C96_same_line_meaning`. C96_file: on any neat source with any number of nodes the output is the text with exactly the edits the rules ask for (StylerRules.v), all of them and no others; C96_nothing_asked: if the rules ask for nothing, the file stays as it is. The other theorems give the exact output of one statement or function without the neatness hypothesis on the rest of the file.
* **C97 Restyling is idempotent** — partial. Files: Styler*.v. Model and proof: exact output text fed back; three-run witness. Theorems: `C97_statement_partial`, `C97_function_partial`, `C97_empty_function_refuted`. Proved for statements and for functions with a non-empty body. Refuted for an empty member function with a multi-line prototype: the third run deletes its closing brace.
* **C98 The restyler does not lose files** — partial. Files: Tool*.v. Model and proof: histories of file system states during a run. Theorems: `C98_failure_leaves_file_partial`, `C98_print_only`, `C98_success_partial`, `C98_crash_refuted`, `C98_full_disk_refuted`, `C98_all_files`. Failure leaves the file, printing touches nothing, uninterrupted success writes the new text, all files are handled. Refuted: every in-place run passes through an empty file (crash loses the source); write errors are reported as success.
* **C99 The include paths are those the compiler lists** — partial. Files: Tool*.v. Model and proof: fgets chunks against a listing given as lines. Theorems: `C99_white_space_bytes`, `C99_search_paths_partial`, `C99_long_line_refuted`, `C99_popen_refuted`. Proved for lines of at most 1022 characters and a compiler that starts. Refuted: longer lines are split into two paths; a failing popen() is a null dereference.
* **C100 Operations on an AtomicRef complete under every fair scheduler** — proved. Files: Fair*.v over AtomicRef*.v. Model and proof: measure on program counters decreasing at every turn except failed lock attempts, infinite fair schedules as functions. Theorems: `C100_fair_completion`, `C100_no_other_waiting`. Sequentially consistent interleavings of the atomic steps (the weak-memory model is in the Weak* files); turns of idle threads do nothing.
* **C101 AtomicRef operations do not block each other** — partial. Files: Fair*.v over AtomicRef*.v. Model and proof: invariant that a suspended lock holder keeps the tag set; n-round starvation schedule by induction. Theorems: `C101_suspended_thread_blocks_refuted`, `C101_starvation_refuted`. Refuted: AtomicRef is a spin lock. A thread suspended between lock() and unlock() blocks every other operation on the cell for ever, and a waiting operation may starve even under a fair scheduler. What holds instead is C100.
* **C102 Objects are stored at addresses suitable for their type** — partial. Files: Layout*.v. Model and proof: sizes, alignments and addresses as numbers, ABI struct layout function, divisibility of powers of two. Theorems: `C102_storage_buffer_partial`, `C102_maybe_partial`, `C102_storage_buffer_refuted`, `C102_maybe_refuted`, `C102_function_inline`, `C102_hash_entries_partial`, `C102_fixed_array_partial`, `C102_over_aligned_refuted`. Full for Function's inline storage. StorageBuffer and Maybe are right for types that need no more alignment than uint64_t and wrong for all others (C102_storage_buffer_refuted, C102_maybe_refuted); hash tables and FixedArray are right up to malloc's alignment and wrong above (C102_over_aligned_refuted). Struct layout by the usual ABI rules (fields in order, padded to their alignment).
* **C103 File queries say exactly what a path names** — proved. Files: Fs*.v. Model and proof: path walk with link budget against an inductive relation; attribute words bit by bit. Theorems: `C103_posix_queries`, `C103_windows_queries`. File system model: inodes, directories with rights, symbolic links (at most 40 followed), special files. Trailing slashes and limits on names are not modelled.
* **C104 CreateDirectory creates, or changes nothing** — partial. Files: Fs*.v. Model and proof: same disk model, histories of events of several processes. Theorems: `C104_true_created`, `C104_false_nothing`, `C104_when`, `C104_one_winner`, `C104_absent_not_creatable_refuted`. Partial: that an absent path with a changeable parent and room can be created fails for dangling links (C104_absent_not_creatable_refuted); all else is proved (POSIX; the Windows call is one system call without logic).
* **C105 NewThread runs the callable exactly once, with what it was given** — partial. Files: Thread*.v. Model and proof: event traces: writes, NewThread, turns; per-thread frame lemma. Theorems: `C105_runs_once_partial`, `C105_only_started_threads`, `C105_nested_bind_refuted`, `C105_long_name_refuted`, `C105_invalid_name_refuted`. Partial: fails for nested bind expressions as arguments (C105_nested_bind_refuted), for names over 15 characters on Linux (C105_long_name_refuted) and for names that are not UTF-8 on Windows, which end the process (C105_invalid_name_refuted). std::bind and std::thread as the standard says; from_bytes is a parameter.
* **C106 SetThreadName names the thread and leaves nothing behind** — partial. Files: Thread*.v. Model and proof: same worlds, with the count of kernel32 references. Theorems: `C106_names_partial`, `C106_nothing_else`, `C106_too_long_refuted`, `C106_macos_other_refuted`, `C106_exception_exact`, `C106_leaked_reference_refuted`. Partial: names too long for the system are dropped silently, macOS cannot name another thread, and on Windows a reference to kernel32.dll is leaked on every call without SetThreadDescription or with a name that is not UTF-8.
* **C107 Every parse() overload reads the same command line** — partial. Files: ArgEntry*.v. Model and proof: the loops that collect the arguments, for every overload. Theorems: `C107_overloads_agree_partial`, `C107_from_main_partial`, `C107_no_arguments_partial`, `C107_embedded_nul_refuted`, `C107_unterminated`. REFUTED for a std::string with an embedded NUL (cut there, for every position and parser). Proved: all overloads agree for every parser state and arguments without NUL; argc 0 and 1; an unterminated parsev() list is read past its end.
* **C108 A parser has the options registered for it, the first one owning a name** — proved. Files: ArgEntry*.v. Model and proof: program histories over option objects, static options and parsers; invariant by induction. Theorems: `C108_registration`, `C108_registration_unique`, `C108_first_registered_wins`. All histories. Where names coincide: proved for toggle and stop options under their long names.
* **C109 Parsers in one program do not influence each other** — partial. Files: ArgEntry*.v. Model and proof: simulation of each parser by itself alone, from a separation invariant on the option objects. Theorems: `C109_no_interference_partial`, `C109_statics_shared_refuted`. REFUTED for static options, which are shared by all parsers (already specified, reset). Proved: a parser constructed before any static option exists behaves as it would alone, in every history.
* **C110 Destructors may use RefPtrs** — partial. Files: Reenter*.v, ReEnd*.v. Model and proof: termination from a potential of the live objects by rank of class; an endless layered program by a run that never gets shorter. Theorems: `C110_destructors_end`, `C110_layered_ends_partial`, `C110_termination_refuted`, `C110_fuel_partial`, `C110_copy_during_destruction_refuted`, `C110_reset_during_destruction_refuted`, `C110_store_during_destruction_refuted`, `C110_source_changed_refuted`, `C110_raw_source_refuted`, `C110_member_refuted`, `C110_reentrant_destructors_partial`, `C110_held_partial`, `C110_layered_partial`. Refuted: every operator = and the destructor call Release() while thing_ still holds the old pointer, so a destructor that finds that RefPtr again copies a dying object (second destruction), trips the assertion in Release() (debug), or stores an object that is then overwritten (leak, release); a = b reads b after the Release. Proved: without such uses, for all destructor bodies and programs, no fault and balanced books; a static discipline of ranks and levels that excludes them. Termination (ReEnd*.v): programs whose destructors create only objects of classes of lower rank always end, and with the discipline they end in balance; without that restriction even a layered program can run for ever.
* **C111 A rejected command line is explained** — partial. Files: Report*.v. Model and proof: composition of parse (ArgModel), StringPrintf (StrModel) and usage (UsageModel); induction over the argument loop for what an error can refer to. Theorems: `C111_rejection_explained_partial`, `C111_unknown_option_partial`, `C111_repeated_option_partial`, `C111_missing_value_partial`, `C111_bad_value_partial`, `C111_value_on_flag_partial`, `C111_positionals_partial`, `C111_extra_argument_partial`, `C111_accepted_silent_partial`, `C111_help_word_hides_error_refuted`, `C111_stale_error_refuted`. REFUTED: with '-h' or '--help' anywhere among the arguments (also as an option's value or behind '--') the reason is not shown, and usage() after a later accepted command line shows an old error. Proved: otherwise every rejection is reported with the exact text, kind by kind, and every message names an argument given or an option known.
* **C112 Combining hashes keeps the second hash** — partial. Files: HashFn*.v. Model and proof: exact value as an arithmetic expression mod 2^32; the map b + b/4 is strictly increasing and spans less than two periods. Theorems: `C112_combine_keeps_second_refuted`, `C112_combine_collisions_partial`. False for every first hash: the code shifts `second` where the usual formula shifts `first`, so second hashes 0 and 3435973837 always collide. Proved: the exact value, the exact collision condition, no three-way collisions, and injectivity below four fifths of the range.
* **C113 Resizing is constant work per add on average** — proved. Files: HashTableCostProps.v. Model and proof: potential function on capacity, elements and removed marks over the histories of C01; one inequality per step from the shape of each operation, summed by induction. Theorems: `C113_resize_work_is_linear`, `C113_resize_policy`, `C113_resize_happens`. Cost is counted in slots: each resize costs the old plus the new capacity, so the bound covers the scan of the old block and the clearing of the new one; probing within a lookup is not part of it (it depends on the hash function).
* **C114 The helpers of am-utility.h mean what they say** — proved. Files: Util*.v. Model and proof: C++ integer promotions and conversions explicit on Z; masks by bit lemmas; memory as a list of bytes. Theorems: `C114_is_aligned`, `C114_zero_alignment`, `C114_most_negative`, `C114_only_fault`, `C114_array_length`, `C114_array_length_of_pointer`, `C114_memset_zero`. IS_ALIGNED is exact precisely for powers of two; alignments 0 and the most negative value are characterised; ARRAY_LENGTH given a pointer is characterised. MemsetZero is modelled as memset on bytes; am-utility.h does not itself include <string.h>, which is outside the model.
* **C115 Integers survive being stored as pointers** — partial. Files: Util*.v. Model and proof: residues modulo the pointer width; exact condition on the widths. Theorems: `C115_thread_local_values_partial`, `C115_cast_to_pointer_partial`, `C115_wide_values_refuted`. REFUTED for 64-bit integers on a 32-bit platform (exactly the values outside 0..2^32-1 change). Proved, with the exact condition, for types no wider than a pointer.
* **C116 Callables may use Functions** — partial. Files: FnReenter*.v. Model and proof: interpreter of client programs whose callables have bodies and destructors, big-step with fuel; ranking discipline; footprint invariant lifted through nested runs; simulation by an ideal semantics without storage (FnReenterSpec.v). Theorems: `C116_ranked_programs_partial`, `C116_replaced_by_destructor_refuted`, `C116_called_by_destructor_refuted`, `C116_self_clear_refuted`, `C116_one_shot`. REFUTED for destructors that replace or call the Function that is getting rid of them (double destruction, call on a dying object: destroy() runs before impl_ changes), and for callables that empty their own Function and then use their captures. Proved in full (termination, no fault, same behaviour as the ideal program, exactly-once destruction) under a ranking discipline: code of a callable uses only Functions of lower rank. Functions captured by callables are C127. Missing: constructors that run client code, exceptions.
* **C117 Mutex regions exclude each other** — proved. Files: Mutex*.v over SyncModel.v. Model and proof: step machine of C72 for both builds; per-thread invariant relating the calls made, the native lock and the owner field; measure for termination. Theorems: `C117_never_undefined`, `C117_mutual_exclusion`, `C117_no_deadlock`. std::mutex is trusted to be a lock; the model covers the owner bookkeeping around it.
* **C118 A hash table stays intact whatever its HashPolicy answers** — proved. Files: HashRobust*.v. Model and proof: histories whose every call brings its own hash and matches; the invariant of C01 with the policy forgotten (distinct slots, tombstones, counters, a free slot) suffices for termination and safety; bag specification. Theorems: `C118_any_policy`, `C118_nothing_lost`. C118_any_policy: any history, each call with its own hash/matches; outcome is a bag run, or out of memory / capacity limit as in C01. C118_nothing_lost: an only-adding history iterates exactly what was reported as added. Within one call the answers are those of one function (said in HashRobustModel.v).
* **C119 A table accepts parts of its own payloads** — partial. Files: HashAlias*.v over HashTableMemModel.v. Model and proof: references as (block, slot), followed when the payload is constructed; case analysis on whether internalAdd replaced the block. Theorems: `C119_alias_partial`, `C119_resizing_add_refuted`. True for HashMap (it builds the entry before touching the table). REFUTED for HashTable and HashSet: add() resizes and frees the old block before it reads its argument, so it reads freed memory exactly when the add changes the size of the table; C119_alias_partial shows they agree in all other cases.
* **C120 Containers use the AllocPolicy they are given** — partial. Files: Policy*.v. Model and proof: policies as handles; trace of policy calls compared with an ideal container that has one policy (simulation); ownership invariant for the blocks. Theorems: `C120_hashtable`, `C120_tables_partial`, `C120_allocPolicy_refuted`, `C120_fixedarray_refuted`, `C120_blocks_go_back_partial`, `C120_moved_array_refuted`, `C120_move_assigned_array_refuted`. HashTable: proved in full (C120_hashtable). HashMap and HashSet ask the right policy (C120_tables_partial), but allocPolicy() returns an unused default-constructed base class: REFUTED for every run. FixedArray ignores its AllocPolicy argument, and a moved FixedArray returns its block to another policy object than it came from: REFUTED. C120_blocks_go_back_partial: without moves of FixedArrays every block returns to its policy.
* **C121 Payload destructors may use the table** — partial. Files: HashReenter*.v over HashTableModel.v. Model and proof: destructors as programs of table calls, the slots being destroyed kept in a list; induction on the nesting with the table invariant framed by the dying slots; a weaker invariant without probe chains while clear() runs. Theorems: `C121_ranked_destructors_partial`, `C121_own_lookup_refuted`, `C121_own_remove_refuted`, `C121_nested_clear_refuted`, `C121_clear_hides_elements_refuted`, `C121_destructor_lookup_refuted`, `C121_nested_add_refuted`. True for destructors that look up or remove elements of strictly lower rank, when the table is emptied with clear() before it is destroyed (C121_ranked_destructors_partial: exact for nested removals; inside clear() each element is destroyed once and only elements still present are found). REFUTED otherwise: an element's own destructor still finds and counts it, removing itself or calling clear() destroys it twice, an addition that grows the table destroys it twice; inside clear() lookups may miss elements that are still there; inside ~HashTable lookups read destroyed payloads; an addition inside clear() leaves an element in a table whose elements() is 0. Not modelled: destructors of moved-from payloads that use the table.
* **C122 InlineList iterators survive changes elsewhere in the lists** — proved. Files: InlineIter*.v over InlineListModel.v. Model and proof: iterator variables as (class, node pointer); specification: a place in the sequences of InlineListSpec, steps related by the sequences at the time of the step; induction on the program with the linked-list invariant plus variable = pointer of its place. Theorems: `C122_iterators_follow_their_nodes`. Incrementing an iterator that denotes a list's end (which the circular links make wrap around) and iterators of a node that is in no list are outside the specification.
* **C123 Options and parsers may be destroyed in any order** — partial. Files: ArgLife*.v over ArgModel.v, ArgEntryModel.v. Model and proof: the option searches, parse(), reset() and the constructor transcribed again with every access through an option pointer checked against the set of destroyed objects; specification: the run of ArgEntryModel in which nothing is destroyed; agreement by induction on the program, refutations by induction on the history up to the faulting call; usage() left out. Theorems: `C123_destruction_unnoticed_partial`, `C123_reset_refuted`, `C123_parse_refuted`, `C123_positional_refuted`, `C123_new_parser_refuted`, `C123_usage_positional_refuted`, `C123_usage_refuted`. Proved: in every program that calls parse()/reset() only while the parser and all options it knows exist, and constructs parsers only while all static options exist, destructions in any order change nothing (same results, same values, same outcome). Refuted in general: no destructor unregisters an option, so reset(), parse() of an unknown option or of a command line short of a positional, and the construction of a new parser touch destroyed options (use after free). usage() is included: its usage line reads every positional, and when help was asked for it reads every option, so it too touches destroyed options.
* **C124 What a header provides does not depend on the headers included before it** — partial. Files: PreprocModel.v (preprocessor), HeadersModel.v (the directives of all 38 headers, written by scripts/gen_headers.py from /repo), PreprocSpec.v, PreprocProofs.v, PreprocFacts.v, PreprocString.v, PreprocProps.v. Model and proof: a preprocessor with the predefined macros as a parameter; a static check of an include structure (each tested macro is defined by one file, which is certainly included before the test), proved sound by induction over the include order and run by the kernel on the headers; system headers are recorded by name and define none of the tested macros; macros in program text are not expanded. Theorems: `C124_include_order_partial`, `C124_any_two_units_partial`, `C124_float_refuted`, `C124_system_errors_refuted`. Violated on Windows for am-float.h, am-string.h and os/am-system-errors.h, which test KE_WINDOWS without (or before) including am-platform.h: included first, am-float.h leaves out the workaround that FloatModulo needs there (am-float.h:125-132), for every Windows environment (C124_float_refuted), and os/am-system-errors.h calls FormatMessageA without <Windows.h> (C124_system_errors_refuted). C124_include_order_partial and C124_any_two_units_partial: the property for every include sequence, of all headers on every other system and of the other 35 headers on Windows.
* **C125 The platform macros name the operating system, the architecture and the compiler** — proved. Files: PreprocModel.v (preprocessor), HeadersModel.v (the directives of all 38 headers, written by scripts/gen_headers.py from /repo), PreprocSpec.v, PreprocProofs.v, PreprocFacts.v, PreprocString.v, PreprocProps.v. Model and proof: am-platform.h evaluated symbolically for every environment, carried to every unit by the soundness of the check. Theorems: `C125_platform_macros`, `C125_one_family`. Proved for every environment and every unit.
* **C126 Compilers older than the supported ones are rejected, others are not** — partial. Files: PreprocModel.v (preprocessor), HeadersModel.v (the directives of all 38 headers, written by scripts/gen_headers.py from /repo), PreprocSpec.v, PreprocProofs.v, PreprocFacts.v, PreprocString.v, PreprocProps.v. Model and proof: am-cxx.h and the last conditional of am-string.h evaluated symbolically for every environment; the files that contain an #error found by computation. Theorems: `C126_compilers_partial`, `C126_rejected`, `C126_apple_refuted`. Violated for Apple's clang: am-cxx.h:37 tests clang_major__ instead of __clang_major__, so Apple's versions are never translated; Apple clang 4.0 (clang 3.1) is accepted and KE_CLANG_MAJOR is 4 (C126_apple_refuted). C126_compilers_partial and C126_rejected: exactly which units are rejected, the numbers of clang taken at face value.
* **C127 Functions captured by callables are part of the captured value** — partial. Files: FnNest*.v. Model and proof: Functions as cells over a heap of holders whose callables own cells; specification: a store of trees changed at a path; a representation relation with footprints, in which every holder has one owner, proved to be kept by every statement by induction; a Function between destroy() and its new value is related to an emptied one; refutations for every program that reaches an assignment between nested Functions. Theorems: `C127_captured_functions_are_values_partial`, `C127_assign_from_own_capture_refuted`, `C127_copy_into_own_capture_refuted`, `C127_move_into_own_capture_refuted`. Fails when one of the two Functions is inside the other: operator = destroys the target before it reads the source. f = (a Function f's callable captures), the linked-list step head = next, reads the deleted holder; copying f over itself or over one of its captures that is not empty reads what was just destroyed; std::move(f) into one of its captures makes a holder that owns itself and is never freed (the three refuted theorems, for every program that reaches such a statement). Proved for programs that assign between unrelated Functions, or copy into an empty one, capturing any. Callables run no commands of their own here (C107 and FnReenter have that); arguments and results are left out.
* **C128 The reference count cannot wrap while its references are held in memory** — proved. Files: RcWidth*.v and ReWidth*.v. Model and proof: AddRef and Release again with counts modulo 2^width; a simulation of every operation of the unbounded model of C35 that holds as long as no count reaches 2^width, with the count bounded by the places that hold pointers; a closed form for AddRef calls whose reference is recorded nowhere shows the bound is sharp; for destructors that run client code, the interpreter of C110 over an increment that is wrapping, unbounded or observed, and agreement of the three runs unless the observer stops. Theorems: `C128_count_does_not_wrap`, `C128_fewer_places_than_counts`, `C128_unrecorded_references_wrap`, `C128_reentrant_destructors`, `C128_temporaries_wrap`. Every RefPtr, AlreadyRefed or owned raw pointer is a pointer-sized object of its own, so on a machine whose count is as wide as its addresses there are always fewer places than counts. With destructors that run client code (the programs of C110) the condition is that no increment reaches 2^width, as reported by an observer of the run, instead of a bound on places; 2^width temporary RefPtrs on one object show it is sharp.
* **C129 PriorityQueue operations make logarithmically many comparisons, with any comparator** — proved. Files: PQCost*.v. Model and proof: the queue over a comparator that passes a state and records its calls; counting along the path to the root and down from it, bound by the logarithm of the heap index; exact counts for the comparator that always says yes; a simulation shows that without state this is the queue of C28. Theorems: `C129_any_comparator`, `C129_logarithmic`, `C129_sorting`, `C129_bounds_attained`, `C129_same_queue`. The growth of the std::vector underneath, and the moves of items it makes, are not counted.
* **C130 Maybe survives exceptions thrown by T's constructors** — partial. Files: MaybeThrow*.v. Model and proof: an oracle says which construction attempt throws; storage with or without a T, destroying raw storage is a fault; simulation of optional values with throwing statements, for every program without a throwing init over a value, which is refuted in every state. Theorems: `C130_maybe_exceptions_refuted`, `C130_every_failed_init_refuted`, `C130_maybe_exceptions_partial`, `C130_maybe_exceptions_release_partial`. Refuted as stated: init() over a value destroys it and leaves initialized_ true when the new T's constructor throws, so the old T is destroyed again (in every state: C130_every_failed_init_refuted). Proved for every program without that event: all other throws leave exactly the expected meaning and leak nothing. Self-assignment and init from the variable's own value are left out (C55 has them).
* **C131 FixedArray survives exceptions thrown by T's constructors** — partial. Files: FixedArrayThrow*.v. Model and proof: the same oracle; blocks of slots kept with the variable that owns them; loop invariants for construction up to the first throw and destruction; simulation of lists with an exact ledger of leaked blocks; every throwing copy assignment refuted. Theorems: `C131_fixedarray_ctor_leaks_refuted`, `C131_fixedarray_assign_refuted`, `C131_fixedarray_exceptions_partial`. Refuted as stated: a constructor that throws leaks its block and the elements built; a copy assignment that throws leaves an array whose destructor destroys elements never built (every such assignment after every program: C131_fixedarray_assign_refuted). Proved for programs without a throwing copy assignment, with the exact list of leaks. Allocation failure is in C60, not combined with exceptions.
* **C132 Function survives exceptions thrown by callables' constructors** — partial. Files: FnThrow*.v. Model and proof: the same oracle; impl_, the holder in the buffer and the holder on the heap; simulation of optional callables for every program without a bad assignment; every bad assignment refuted. Theorems: `C132_function_assign_refuted`, `C132_function_exceptions_partial`, `C132_heap_moves_never_throw`. Refuted as stated: an assignment whose construction throws leaves impl_ pointing to the callable already destroyed, or to a buffer never filled (every bad assignment after every program). Proved for programs without a bad assignment: constructors of every kind, Functions or large callables assigned to empty Functions, all moves of large callables. Sources of copies are const Functions.
* **C133 HashTable survives exceptions thrown by payloads** — partial. Files: HashThrow*.v. Model and proof: the functions of HashTableModel.v stopped at the constructor that throws; from the invariant of C01, the state left by add and by the n-th move of a resize is shown to fault at its end, for every reachable table; programs with throwing Entries by induction with the same invariant. Theorems: `C133_add_exception_refuted`, `C133_resize_exception_refuted`, `C133_entry_exceptions_partial`, `C133_entry_exception_changes_nothing`, `C133_resize_without_exception`. Refuted as stated: a throw inside HashTable::add leaves an entry counted and found with no payload in it, and a throw inside a resize leaves a half-filled new table and leaks the old one (every reachable table, every such call). Proved: exceptions while HashMap::add builds its Entry leave the map unchanged, in every program. Hashes and comparisons that throw: C136. Destructors that throw are not modelled.
* **C134 PriorityQueue survives a comparator that throws** — partial. Files: PQThrow*.v. Model and proof: the queue over a comparator that may throw; a queue as a bag of cells, some moved from; the loops permute cells and fault only on a moved-from one; a bag until the first throwing add, every throwing add refuted. Theorems: `C134_add_exception_refuted`, `C134_every_add_can_throw`, `C134_exceptions_partial`, `C134_pop_exception_loses_the_top`, `C134_without_exceptions`. Refuted as stated: an add whose comparison throws loses the item and leaves a moved-from item in the queue (after every history); a pop that throws loses the item it would have returned. Proved: until an add throws nothing faults and the queue is a bag; after a throwing pop the order is not promised. Moves of T do not throw.
* **C135 A thread-safe count as wide as a pointer does not wrap** — proved. Files: AtomicWidth*.v. Model and proof: the steps on refcount_ transcribed with arithmetic modulo 2^w; lockstep with the unbounded machine by its invariant (count = references) while references stay below 2^w; the wrap reached by an explicit schedule for every w. Theorems: `C135_count_does_not_wrap`, `C135_memory_bounds_references`, `C135_more_references_delete_early`. The clients' obligations are those of C39-C42. The bound is sharp: with 2^w + 1 references one release deletes the object under the other 2^w (C135_more_references_delete_early); AddRef has no check. Covers RefcountedThreadsafe and (as far as C40 goes) VirtualRefcountedThreadsafe.
* **C136 A HashTable is unharmed by a HashPolicy that throws or changes its mind** — proved. Files: HashOracle*.v. Model and proof: the functions that call HashPolicy transcribed with its n-th answer, or an exception, as input; the invariant of C01 for a policy under which nothing matches; a bag as in C118, a throw leaves the same table. Theorems: `C136_policy_with_state`, `C136_throw_changes_nothing`. C118 for policies with state (its simplification 'one function per call' is gone) and exceptions. The policy does not call back into the table (HashReenter*.v has destructors that do).
* **C137 Scopes of am-raii.h under exceptions** — partial. Files: RaiiThrow*.v. Model and proof: interpreter of structured programs with unwinding and std::terminate, copies counted and thrown by an oracle; book-keeping invariant over guards; memory frame by induction; agreement with RaiiModel.v where nothing throws. Theorems: `C137_guards_once`, `C137_save_restores`, `C137_save_restores_exception`, `C137_strong_restores`, `C137_save_exception_refuted`, `C137_guard_exception_refuted`, `C137_guard_move_refuted`, `C137_constructor_refuted`, `C137_no_exceptions`, `C137_only_those_terminate`, `C137_return_and_void`, `C137_return_and_void_refuted`. Proved: whatever throws, a program that is in control after its scopes has run or cancelled each guard exactly once and has no guard left; SaveAndSet restores its location on every exit except that of its own constructor, and with a T whose failed assignments change nothing, on that one too; where no copy and no callback throws, nothing is terminated; ReturnAndVoid is all or nothing when its return value is elided. Refuted: a copy back or a callback that throws in a destructor, or a callback whose move throws (noexcept constructor), terminates the program whatever handlers there are; a failed assignment in SaveAndSet's constructor stays although the old value was saved; ReturnAndVoid loses the value when the move of an unelided return value throws.
* **C138 PriorityQueue survives items whose moves throw** — partial. Files: PQMove*.v over PQModel.v. Model and proof: every move counted and thrown by an oracle; the cells as a list with one hole; induction over both loops, permutations of lists with a hole; agreement with PQModel.v where nothing throws. Theorems: `C138_add_exception_refuted`, `C138_order_refuted`, `C138_pop_exception_refuted`, `C138_exceptions_partial`, `C138_without_exceptions`, `C138_throws_iff_a_move_throws`, `C138_histories_partial`. Refuted: any add to a queue with items whose third move throws (there always is one) loses the new item and leaves a moved-from item in the queue; if the second throws, add() throws but the item is in the queue, in last place whatever its priority; a pop whose second move throws loses the item and leaves a moved-from item in first place. Proved: on a queue without moved-from items no call faults, a call that does not throw is that of the queue of C28, a call throws exactly when one of its moves does, and then loses at most the item added, or the item to be returned and one more; in every history, all results up to the first call that throws are in priority order. A failed move is taken to change nothing.

## What is modelled, file by file

| file in /repo | modelled | not modelled |
|---|---|---|
| amtl/am-hashtable.h, am-hashmap.h, am-hashset.h, am-allocator-policies.h | all operations, hash functions, allocation failure, lifetimes, arbitrary hash policies (HashRobust*.v), aliased adds (HashAlias*.v), policy objects (Policy*.v), destructors that use the table (HashReenter*.v), payloads whose constructors throw (HashThrow*.v), policies with state and policies that throw (HashOracle*.v) | exceptions thrown by destructors; the statistical quality of the hashes |
| amtl/am-bits.h, am-arithmetic.h | all functions, per compiler branch | - |
| amtl/am-priority-queue.h | all; comparators with state, number of comparisons (PQCost*.v); comparators that throw (PQThrow*.v), items whose moves throw (PQMove*.v) | std::vector growth; comparators and moves that throw in one program |
| amtl/am-inlinelist.h | all; iterators as long-lived objects (InlineIter*.v) | - |
| amtl/am-refcounting.h | RefPtr, AlreadyRefed, Refcounted, VirtualRefcounted; destructors that run client code (Reenter*.v), their termination (ReEnd*.v); counts of finite width (RcWidth*.v), also with such destructors (ReWidth*.v) | - |
| amtl/am-refcounting-threadsafe.h | all; sequentially consistent and C++11 memory model | wraparound of the count in the C++11 memory model (AtomicWidth*.v has it, sequentially consistent), out-of-thin-air executions |
| amtl/am-string.h, amtl/os/am-path.h | SafeStrcpy, SafeStrcpyN, SafeStrcat, SafeSprintf/SafeVsprintf, Sprintf, Split, Join, StartsWith, EndsWith, case mapping, path functions | locale dependence of toupper; the format language of vsnprintf |
| amtl/am-maybe.h, am-fixedarray.h, am-storagebuffer.h | all; exceptions thrown by T's constructors (MaybeThrow*.v, FixedArrayThrow*.v) | exceptions thrown by T's destructor or operators |
| amtl/am-function.h | holders, copies, moves, calls, inline storage; callables that use Functions themselves (FnReenter*.v), callables that own Functions (FnNest*.v), exceptions thrown when a callable is copied or moved (FnThrow*.v) | exceptions thrown by calls and destructors (AMBuildScript compiles with -fno-exceptions); callables that both own Functions and use others when copied or destroyed |
| amtl/am-utility.h | IS_ALIGNED, ARRAY_LENGTH, MemsetZero, cast_to_pointer | KE_CRITICAL_LIKELY (a hint to the optimiser) |
| amtl/am-flags.h, am-enum.h, am-raii.h | all; exceptions thrown by copies and callbacks (RaiiThrow*.v) | StackLinked under exceptions (its members do not throw) |
| amtl/am-threadlocal.h, am-mutex.h | ThreadLocal over pthread keys, mutex wrappers | see the table of properties |
| amtl/experimental/am-argparser.h, .cpp | parser, all option kinds, all parse overloads, static options and several parsers, usage text, error texts, destruction of options and parsers, also before usage() (ArgLife*.v) | FILE* output |
| amtl/am-float.h, am-time.h | all | std::chrono internals |
| amtl/am-vector.h, am-deque.h | all | std::vector/std::deque internals |
| amtl/os/am-shared-library.h, os/am-system-errors.h | all, POSIX and Windows | the dynamic linker itself |
| tools/restyler/amstyler.cpp | TextRewriter, the visitors, the driver | clang: the lexer and the syntax tree are inputs of the model |
| amtl/os/am-fsutil-posix.h, am-fsutil-windows.h | queries and CreateDirectory over a file system model | trailing slashes, name length limits, the Windows path syntax |
| amtl/am-thread.h | SetThreadName, NewThread on Linux, macOS, Windows | memory orders, joining (std::thread) |
| amtl/am-platform.h, am-cxx.h, am-unused.h, am-linking.h, am-assert.h | all conditionals and includes (HeadersModel.v) | the replacement texts of KE_LINKONCE, KE_DLL_EXPORT, KE_UNUSED etc. in program text |
| the preprocessor directives of all headers of amtl | Preproc*.v, HeadersModel.v | expansion of macros in program text; macros defined by system headers |

## Findings

Violated properties, each with a `_refuted` theorem and its exact extent: see the notes of the
properties marked *partial* above.  None of the refutations depends on an axiom or on an unreachable
state: each is a run of the model from its initial state, or holds of every reachable state.

## Wrong programs

`seeded/mutations/*.json` are edits of the model the way a bug would change the program;
`scripts/mutate.py` applies each to a scratch copy, rebuilds and appends the theorems that stop
proving to `seeded/LOG.jsonl`.  Survivors led to tightened theorems (field `theorems_tightened`).

## Building

`cd rocq && coq_makefile -f _CoqProject -o Makefile && make -j4` (about six minutes on four cores).
