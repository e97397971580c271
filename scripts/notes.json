{
 "C18": {
  "note": "Fails on GCC with 32-bit long (ILP32/MinGW): __builtin_clzl is 32 bits wide; exact result characterised. All other branches proved."
 },
 "C19": {
  "note": "GCC/Clang branch uses 32-bit __builtin_clz: refuted for every n >= 2^32; MSVC and n < 2^32 proved."
 },
 "C20": {
  "note": ""
 },
 "C21": {
  "note": ""
 },
 "C22": {
  "note": ""
 },
 "C23": {
  "note": "NumBits <= 30 is exactly where the mask expression is defined; above that it is undefined behaviour (second theorem)."
 },
 "C24": {
  "note": "Guard admits overflowing products (refuted with witnesses); proved: 'unsafe' is always right and 'safe' is off by less than a factor 2; on GCC 64-bit also undefined behaviour."
 },
 "C25": {
  "note": "Guard always answers true: refuted; proved: no safe addition is rejected."
 },
 "C26": {
  "note": ""
 },
 "C27": {
  "note": "Wrong exactly when the product is a non-zero multiple of 2^64 (returns true with 0); characterised for all inputs."
 },
 "C01": {
  "note": "Whole life of a table (construct, init, any operations, destroy) for every hash function, entry size, build mode, AllocPolicy and allocation schedule. Assertion/abort outcomes only near the capacity limit or on refused allocation."
 },
 "C02": {
  "note": ""
 },
 "C03": {
  "note": ""
 },
 "C04": {
  "note": ""
 },
 "C05": {
  "note": "The table object is bit-for-bit unchanged."
 },
 "C06": {
  "note": "Leak/DoubleFree/Uninit/MovedFrom are separate faults of the model; the theorem excludes all of them. Blocks: the pointer-level model of HashTableMemModel agrees with the value-level one on every result (C06_heap_faithful), owns one block at a time and returns every block exactly once. init() is assumed to be called once: C06_second_init_leaks shows what a second call does. Exceptions from payload constructors not modelled."
 },
 "C07": {
  "note": "Refuted for every capacity: init() sets capacity_ before the failed allocation and ~HashTable walks a null table. Over-limit and aborting paths proved safe."
 },
 "C08": {
  "note": "Refuted: grow() tests capacity_ >= kMaxCapacity, not the doubled capacity; debug asserts, release exceeds the limit. Exact behaviour at the limit proved for every reachable table."
 },
 "C09": {
  "note": ""
 },
 "C10": {
  "note": ""
 },
 "C11": {
  "note": ""
 },
 "C12": {
  "note": ""
 },
 "C13": {
  "note": ""
 },
 "C14": {
  "note": "Also: result() finalises in place and is not idempotent."
 },
 "C15": {
  "note": ""
 },
 "C16": {
  "note": "Refuted as strongly as possible: under C++17 HashInt32 is defined for exactly four of the 2^32 inputs (signed overflow), under C++20 for at most 16. With -fwrapv total."
 },
 "C17": {
  "note": "Refuted for every input: a and ~a always collide (arithmetic right shift); at most 8 preimages per hash; the 64-bit mix is injective."
 },
 "C28": {
  "note": ""
 },
 "C29": {
  "note": ""
 },
 "C30": {
  "note": "For any comparator; illegal pop/peek is characterised exactly."
 },
 "C31": {
  "note": ""
 },
 "C32": {
  "note": "False: removeFromParentList does not decrement the list's length. Exact value of length() proved for every history, and exactness without removeFromParentList."
 },
 "C33": {
  "note": "False in release builds: remove/erase leave stale links. Exact in debug builds, and in any build when nodes leave only through removeFromParentList; no false negatives ever (C31/C33 shows)."
 },
 "C34": {
  "note": ""
 },
 "C35": {
  "note": "All legal histories of 19 RefPtr/AlreadyRefed/raw-owner operations on arbitrary object graphs; destructor cascades modelled; both NDEBUG and debug builds."
 },
 "C36": {
  "note": "The property is false of the code (operator= releases before it adds a reference): proved use-after-free for every reachable state with one handle; proved harmless when null or shared."
 },
 "C37": {
  "note": "False of the code for a sole handle (operator= releases before reading the source): proved use-after-free for every reachable state; proved correct when the object has another handle."
 },
 "C38": {
  "note": "Transfers change no count; move-assignment changes counts exactly as resetting the destination to null does. Self-move leaves null (the property does not exclude it: source null)."
 },
 "C39": {
  "note": "Any number of threads, objects, AtomicRefs and interleavings of atomic steps (sequentially consistent), address reuse included; both NDEBUG settings."
 },
 "C40": {
  "note": "False of the code: VirtualRefcountedThreadsafe::Release compares the previous count with 0, so in no legal execution is any object ever deleted (proved for all executions, plus a concrete leak). Partial: counts right, no faults."
 },
 "C41": {
  "note": "Both refcount classes; sequentially consistent memory (the memory_order_release argument of the lock CAS is outside the model)."
 },
 "C42": {
  "note": "Mutual exclusion, linearizability as a register (invocation/effect/response formulation, per cell, between construction and destruction), exact counts at rest."
 },
 "C45": {
  "note": "FALSE as stated: SafeStrcpyN never looks for src's terminator (reads out of bounds when n exceeds strlen+1, copies the terminator when n = strlen+1) and leaves dest untouched for n = 0; both refuted universally. Proved for 0 < n <= strlen(src), plus the exact raw-copy behaviour on every buffer."
 },
 "C47": {
  "note": "FALSE at exactly one length: a text of INT_MAX characters makes `len + 1` overflow (refuted). Proved for every shorter text and for errors in either pass, with both C99 and MSVC vsnprintf."
 },
 "C49": {
  "note": "FALSE for strings with an embedded NUL (refuted for every such string: the round trip returns the part before the NUL). Proved for NUL-free strings."
 },
 "C51": {
  "note": "FALSE when the joined length does not fit size_t: the size computation wraps and Join writes out of bounds (refuted; reachable on 32-bit targets with ~1.5 MB of pieces). Proved whenever the joined length is representable."
 },
 "C53": {
  "note": "FALSE where plain char is signed: bytes 0x80..0xFE are passed to toupper/tolower as negative ints (undefined; refuted for every such string). Proved for unsigned char and for ASCII (plus 0xFF) text."
 },
 "C55": {
  "note": "All programs over any number of Maybe variables that never assign a variable to itself (self-assignment is C57) observe optional-value semantics, debug and NDEBUG."
 },
 "C56": {
  "note": "FALSE as stated: assigning to a Maybe that holds a value overwrites it without destroying it, and a moved-from Maybe never destroys its moved-from T (refuted by two programs). Proved instead for every program: nothing is destroyed twice and the number of never-destroyed T objects is exactly the number of such overwrites/moves."
 },
 "C57": {
  "note": "FALSE as stated: m = m and m = std::move(m) empty m (in every reachable state) and abandon its T; m.init(m.get()) reads a destroyed value. Only the empty Maybe survives."
 },
 "C58": {
  "note": "All programs over any number of arrays with no self-assignment (C59) and sizes that fit size_t (C60). Alloc failure under the default policy aborts; nothing else can go wrong."
 },
 "C59": {
  "note": "FALSE as stated: move-assignment over an array with storage leaks the block, self copy-assignment of a non-empty array reads destroyed elements (in every reachable state), self move-assignment empties and leaks. Proved instead: exact leak accounting for every program without self-assignment."
 },
 "C60": {
  "note": "FALSE as stated: with a fallible policy any failed allocation of n > 0 elements makes the destructor dereference null; any sizeof(T)*n beyond size_t writes outside the block (both universal). What holds: n = 0, and abort under the default policy."
 },
 "C61": {
  "note": "All programs over distinct Functions, callables of any size and alignment, debug and NDEBUG; lvalue copies of an empty Function are C63, self-assignment C64. Calling an empty Function: assertion (debug) / null dereference, for every reachable state."
 },
 "C62": {
  "note": "All programs without self-assignment. Lvalue copies are wrapped in a heap holder (that is what overload resolution selects), so they never report inline storage; the theorem gives the exact number of operator new calls."
 },
 "C63": {
  "note": "FALSE as stated: copying any empty Function that is a non-const lvalue yields a set Function whose call faults (all reachable states). Const copies and moves do give an empty Function (proved, all reachable states)."
 },
 "C64": {
  "note": "FALSE as stated: self copy-assignment of any non-empty Function, and self move-assignment of an inline one, use a destroyed callable (all reachable states). Self move of a heap-stored or empty one empties it, without fault or leak."
 },
 "C65": {
  "note": "FALSE as stated in README on targets with word-aligned double: callables of more than two words are allocated with new because the holder's vtable pointer takes one. Exact bound proved: two words (64-bit, i386), three words where double needs two-word alignment."
 },
 "C66": {
  "note": "Every operator of Flags<T> and of KE_DEFINE_ENUM_OPERATORS, at every width and signedness of the underlying type, bit by bit; compound assignments over all histories. Enums whose underlying type is bool are excluded (promotion of ~ differs). C66_enum_comparators_narrow: KE_DEFINE_ENUM_COMPARATORS with a Type narrower than the enum equates different values (stated exactly)."
 },
 "C67": {
  "note": "Over all well-bracketed programs of nested SaveAndSet scopes, including bodies that write the location. C67_return_and_void covers am-raii.h's ReturnAndVoid."
 },
 "C68": {
  "note": "All histories of construct/move/cancel/destroy; callback effect counted exactly."
 },
 "C69": {
  "note": "All nested histories; the destructor assertion is characterised exactly (fails iff destroyed out of order) and what a release build does then is a theorem."
 },
 "C70": {
  "note": "All thread programs and schedules, sequentially consistent. The clause 'returns the value this thread last set' additionally needs pthread_setspecific to succeed: set() ignores its result, so a failed store is silently lost (C70_tls_failed_store_is_silent_refuted)."
 },
 "C71": {
  "note": "REFUTED in general: allocated_ is set by compare-and-swap before pthread_key_create runs, so a racing set()/get() uses an indeterminate key; after a failed allocate() the next allocate() returns true and later get/set/destructor use an uncreated key. Proved: at most one key is ever created, in every interleaving; while no allocation is interrupted, set()/get() of any thread are safe and get() before any allocation returns null; a single thread is safe, aborting exactly when creation fails. Both refutations also hold for all programs of the stated shape."
 },
 "C72": {
  "note": "REFUTED for locks taken with the inherited try_lock() (assertion fails though held) and for condition-variable waits (assertion passes though not held). Proved for all well-bracketed lock/unlock programs and schedules."
 },
 "C73": {
  "note": "All option sets whose names are well formed and distinct, all spellings (--n=v, --n:v, --n v, -s v, -s=v, -sv, flags, --no-flags, positionals, extras), all orders."
 },
 "C74": {
  "note": "REFUTED: '--no-X' with X and no-X unknown dereferences a null option pointer, after any prefix and before any rest. Proved: from every parser state and argument vector that is the only fault; without '--no-' no history of parse/reset faults."
 },
 "C75": {
  "note": "Each listed kind of malformed input is rejected (one theorem per kind, after any well-formed prefix), and the set of accepted command lines is characterised exactly by a grammar. REFUTED for an Option<bool> with an attached non-boolean value and for integers outside int's range, which are accepted."
 },
 "C76": {
  "note": "All accepted command lines."
 },
 "C77": {
  "note": "REFUTED: every further '--' after the first is dropped from passthrough_args(). Proved: everything else is kept in order (exact characterisation), so the property holds when there is no second '--'."
 },
 "C78": {
  "note": "All prefixes, all remaining arguments."
 },
 "C79": {
  "note": "REFUTED: reset() keeps extra and passthrough arguments, the error text, and the fact that '--' was met (after which every later parse passes everything through). Proved: the option and positional values and the result after reset() are those of a fresh parser whenever '--' had not been met; a clean parser behaves as new."
 },
 "C80": {
  "note": "REFUTED: an Option<bool> followed by an argument that is no boolean literal has no effect, and an attached non-boolean value is accepted and ignored. Proved: as last argument it gives true; followed by or attached to a literal it gives that."
 },
 "C81": {
  "note": "REFUTED outside the range of int (accepted, with strtol saturation and truncation). Proved: accepted texts are exactly blanks, sign, decimal digits; in range the value is exact."
 },
 "C82": {
  "note": "All help texts without NUL; also the complete text of usage() (banner, usage line, headings, columns) and of the error form."
 },
 "C86": {
  "note": "MoveExtend on two different vectors, PopBack/PopFront, RemoveAt, InsertAt/EmplaceAt (with and without reallocation, own elements included), EraseIf: exact results over cells that are live or moved-from. std::vector/std::deque members are modelled by their documented effect."
 },
 "C87": {
  "note": "Refuted for every non-empty vector: MoveExtend(&v,&v) never returns (it runs on, or emplace_back throws). Only the empty vector survives (partial)."
 },
 "C88": {
  "note": "Any history of SharedLib constructions, Open calls (with any dlopen outcome) and RefPtr/AlreadyRefed operations, built on the refcounting model of C35: books balance, Open's exact effect, lookup only on handles not yet closed, error buffer. dlopen/dlerror/LoadLibrary are oracles."
 },
 "C89": {
  "note": "emit() applies any set of non-overlapping edits at distinct offsets (any sort result). Partial: an edit with an empty range (Replace/Remove of nothing) deletes a character anyway (C89_empty_range_refuted)."
 },
 "C90": {
  "note": "Refuted: two edits at one offset, or an edit at end of text, fail the assertion in debug builds; release builds lose them silently. C90_returns_only_if_all_applied_partial says what a returning debug emit guarantees."
 },
 "C91": {
  "note": "Holds on Windows and glibc, and for XSI strerror_r when the message fits; refuted for XSI strerror_r with ERANGE, whose result is ignored."
 },
 "C83": {
  "note": "float: true for all infinities, false for all finite values, but also true for every NaN (refuted). double: to_layout narrows to float and stores it in an 8-byte union, so on little-endian machines the result depends only on stale memory, on big-endian machines it is false for every infinity (refuted, for every rounding mode and NaN treatment; a nearest-even narrowing is exhibited)."
 },
 "C84": {
  "note": "Proved for every fmod with the C99 contract (an instance, proved correct, is exhibited). Windows: float follows the documentation for every Windows fmod except finite%NaN and 0%0 (refuted); double inherits the broken IsInfinite: any x%y can come out as x (refuted). That am-float.h leaves the workaround out when it is the first header included is C124."
 },
 "C85": {
  "note": "Exact whenever sec*10^9 and the sum are representable; refuted for the last 0.85 s before the earliest representable instant (intermediate overflow). Truncation to the clock period and EpochValueToTimePoint proved. FormatTime wraps std::put_time and is not modelled."
 },
 "C92": {
  "note": "Axiomatised operationally: histories in modification order, views as sets of events, read-modify-write atomicity, acquire/release with release sequences; seq_cst is weakened to acquire+release. No out-of-thin-air executions."
 },
 "C93": {
  "note": "REFUTED for the code: the compare-exchange of lock() is release/relaxed, so after an ABA reuse of an address the locker is not ordered after the construction of the object it then AddRefs (witness execution ending in a data race). Proved: without reuse of addresses the code is safe, looks sequentially consistent and is linearizable; with an acquiring compare-exchange all of it holds unconditionally."
 },
 "C94": {
  "note": "Proved for neat layouts (StylerSpec.v): output equals input apart from white space, literals and comments intact. Refuted otherwise, each with the exact output: text between ) and { is deleted; a brace right behind ) of a multi-line statement is deleted; {} of an empty function on its own line loses the }; with two initializers on the last line of a constructor the second is deleted; a ) in a comment is taken for the closing parenthesis."
 },
 "C95": {
  "note": "Proved for neat layouts. Refuted: f(){ in the first column fails an assertion (debug) or never returns (release); catch (...) dereferences null."
 },
 "C96": {
  "note": "C96_file: on any neat source with any number of nodes the output is the text with exactly the edits the rules ask for (StylerRules.v), all of them and no others; C96_nothing_asked: if the rules ask for nothing, the file stays as it is. The other theorems give the exact output of one statement or function without the neatness hypothesis on the rest of the file."
 },
 "C97": {
  "note": "Proved for statements and for functions with a non-empty body. Refuted for an empty member function with a multi-line prototype: the third run deletes its closing brace."
 },
 "C98": {
  "note": "Failure leaves the file, printing touches nothing, uninterrupted success writes the new text, all files are handled. Refuted: every in-place run passes through an empty file (crash loses the source); write errors are reported as success."
 },
 "C99": {
  "note": "Proved for lines of at most 1022 characters and a compiler that starts. Refuted: longer lines are split into two paths; a failing popen() is a null dereference."
 },
 "C100": {
  "note": "Sequentially consistent interleavings of the atomic steps (the weak-memory model is in the Weak* files); turns of idle threads do nothing."
 },
 "C101": {
  "note": "Refuted: AtomicRef is a spin lock. A thread suspended between lock() and unlock() blocks every other operation on the cell for ever, and a waiting operation may starve even under a fair scheduler. What holds instead is C100."
 },
 "C102": {
  "note": "Full for Function's inline storage. StorageBuffer and Maybe are right for types that need no more alignment than uint64_t and wrong for all others (C102_storage_buffer_refuted, C102_maybe_refuted); hash tables and FixedArray are right up to malloc's alignment and wrong above (C102_over_aligned_refuted). Struct layout by the usual ABI rules (fields in order, padded to their alignment)."
 },
 "C103": {
  "note": "File system model: inodes, directories with rights, symbolic links (at most 40 followed), special files. Trailing slashes and limits on names are not modelled."
 },
 "C104": {
  "note": "Partial: that an absent path with a changeable parent and room can be created fails for dangling links (C104_absent_not_creatable_refuted); all else is proved (POSIX; the Windows call is one system call without logic)."
 },
 "C105": {
  "note": "Partial: fails for nested bind expressions as arguments (C105_nested_bind_refuted), for names over 15 characters on Linux (C105_long_name_refuted) and for names that are not UTF-8 on Windows, which end the process (C105_invalid_name_refuted). std::bind and std::thread as the standard says; from_bytes is a parameter."
 },
 "C106": {
  "note": "Partial: names too long for the system are dropped silently, macOS cannot name another thread, and on Windows a reference to kernel32.dll is leaked on every call without SetThreadDescription or with a name that is not UTF-8."
 },
 "C107": {
  "note": "REFUTED for a std::string with an embedded NUL (cut there, for every position and parser). Proved: all overloads agree for every parser state and arguments without NUL; argc 0 and 1; an unterminated parsev() list is read past its end."
 },
 "C108": {
  "note": "All histories. Where names coincide: proved for toggle and stop options under their long names."
 },
 "C109": {
  "note": "REFUTED for static options, which are shared by all parsers (already specified, reset). Proved: a parser constructed before any static option exists behaves as it would alone, in every history."
 },
 "C110": {
  "note": "Refuted: every operator = and the destructor call Release() while thing_ still holds the old pointer, so a destructor that finds that RefPtr again copies a dying object (second destruction), trips the assertion in Release() (debug), or stores an object that is then overwritten (leak, release); a = b reads b after the Release. Proved: without such uses, for all destructor bodies and programs, no fault and balanced books; a static discipline of ranks and levels that excludes them. Termination (ReEnd*.v): programs whose destructors create only objects of classes of lower rank always end, and with the discipline they end in balance; without that restriction even a layered program can run for ever."
 },
 "C111": {
  "note": "REFUTED: with '-h' or '--help' anywhere among the arguments (also as an option's value or behind '--') the reason is not shown, and usage() after a later accepted command line shows an old error. Proved: otherwise every rejection is reported with the exact text, kind by kind, and every message names an argument given or an option known."
 },
 "C112": {
  "note": "False for every first hash: the code shifts `second` where the usual formula shifts `first`, so second hashes 0 and 3435973837 always collide. Proved: the exact value, the exact collision condition, no three-way collisions, and injectivity below four fifths of the range."
 },
 "C113": {
  "note": "Cost is counted in slots: each resize costs the old plus the new capacity, so the bound covers the scan of the old block and the clearing of the new one; probing within a lookup is not part of it (it depends on the hash function)."
 },
 "C114": {
  "note": "IS_ALIGNED is exact precisely for powers of two; alignments 0 and the most negative value are characterised; ARRAY_LENGTH given a pointer is characterised. MemsetZero is modelled as memset on bytes; am-utility.h does not itself include <string.h>, which is outside the model."
 },
 "C115": {
  "note": "REFUTED for 64-bit integers on a 32-bit platform (exactly the values outside 0..2^32-1 change). Proved, with the exact condition, for types no wider than a pointer."
 },
 "C116": {
  "note": "REFUTED for destructors that replace or call the Function that is getting rid of them (double destruction, call on a dying object: destroy() runs before impl_ changes), and for callables that empty their own Function and then use their captures. Proved in full (termination, no fault, same behaviour as the ideal program, exactly-once destruction) under a ranking discipline: code of a callable uses only Functions of lower rank. Functions captured by callables are C127. Missing: constructors that run client code, exceptions."
 },
 "C117": {
  "note": "std::mutex is trusted to be a lock; the model covers the owner bookkeeping around it."
 },
 "C118": {
  "note": "C118_any_policy: any history, each call with its own hash/matches; outcome is a bag run, or out of memory / capacity limit as in C01. C118_nothing_lost: an only-adding history iterates exactly what was reported as added. Within one call the answers are those of one function (said in HashRobustModel.v)."
 },
 "C119": {
  "note": "True for HashMap (it builds the entry before touching the table). REFUTED for HashTable and HashSet: add() resizes and frees the old block before it reads its argument, so it reads freed memory exactly when the add changes the size of the table; C119_alias_partial shows they agree in all other cases."
 },
 "C120": {
  "note": "HashTable: proved in full (C120_hashtable). HashMap and HashSet ask the right policy (C120_tables_partial), but allocPolicy() returns an unused default-constructed base class: REFUTED for every run. FixedArray ignores its AllocPolicy argument, and a moved FixedArray returns its block to another policy object than it came from: REFUTED. C120_blocks_go_back_partial: without moves of FixedArrays every block returns to its policy."
 },
 "C121": {
  "note": "True for destructors that look up or remove elements of strictly lower rank, when the table is emptied with clear() before it is destroyed (C121_ranked_destructors_partial: exact for nested removals; inside clear() each element is destroyed once and only elements still present are found). REFUTED otherwise: an element's own destructor still finds and counts it, removing itself or calling clear() destroys it twice, an addition that grows the table destroys it twice; inside clear() lookups may miss elements that are still there; inside ~HashTable lookups read destroyed payloads; an addition inside clear() leaves an element in a table whose elements() is 0. Not modelled: destructors of moved-from payloads that use the table."
 },
 "C122": {
  "note": "Incrementing an iterator that denotes a list's end (which the circular links make wrap around) and iterators of a node that is in no list are outside the specification."
 },
 "C123": {
  "note": "Proved: in every program that calls parse()/reset() only while the parser and all options it knows exist, and constructs parsers only while all static options exist, destructions in any order change nothing (same results, same values, same outcome). Refuted in general: no destructor unregisters an option, so reset(), parse() of an unknown option or of a command line short of a positional, and the construction of a new parser touch destroyed options (use after free). usage() is included: its usage line reads every positional, and when help was asked for it reads every option, so it too touches destroyed options."
 },
 "C124": {
  "note": "Violated on Windows for am-float.h, am-string.h and os/am-system-errors.h, which test KE_WINDOWS without (or before) including am-platform.h: included first, am-float.h leaves out the workaround that FloatModulo needs there (am-float.h:125-132), for every Windows environment (C124_float_refuted), and os/am-system-errors.h calls FormatMessageA without <Windows.h> (C124_system_errors_refuted). C124_include_order_partial and C124_any_two_units_partial: the property for every include sequence, of all headers on every other system and of the other 35 headers on Windows."
 },
 "C125": {
  "note": "Proved for every environment and every unit."
 },
 "C126": {
  "note": "Violated for Apple's clang: am-cxx.h:37 tests clang_major__ instead of __clang_major__, so Apple's versions are never translated; Apple clang 4.0 (clang 3.1) is accepted and KE_CLANG_MAJOR is 4 (C126_apple_refuted). C126_compilers_partial and C126_rejected: exactly which units are rejected, the numbers of clang taken at face value."
 },
 "C127": {
  "note": "Fails when one of the two Functions is inside the other: operator = destroys the target before it reads the source. f = (a Function f's callable captures), the linked-list step head = next, reads the deleted holder; copying f over itself or over one of its captures that is not empty reads what was just destroyed; std::move(f) into one of its captures makes a holder that owns itself and is never freed (the three refuted theorems, for every program that reaches such a statement). Proved for programs that assign between unrelated Functions, or copy into an empty one, capturing any. Callables run no commands of their own here (C107 and FnReenter have that); arguments and results are left out."
 },
 "C128": {
  "note": "Every RefPtr, AlreadyRefed or owned raw pointer is a pointer-sized object of its own, so on a machine whose count is as wide as its addresses there are always fewer places than counts. With destructors that run client code (the programs of C110) the condition is that no increment reaches 2^width, as reported by an observer of the run, instead of a bound on places; 2^width temporary RefPtrs on one object show it is sharp."
 },
 "C129": {
  "note": "The growth of the std::vector underneath, and the moves of items it makes, are not counted."
 },
 "C130": {
  "note": "Refuted as stated: init() over a value destroys it and leaves initialized_ true when the new T's constructor throws, so the old T is destroyed again (in every state: C130_every_failed_init_refuted). Proved for every program without that event: all other throws leave exactly the expected meaning and leak nothing. Self-assignment and init from the variable's own value are left out (C55 has them)."
 },
 "C131": {
  "note": "Refuted as stated: a constructor that throws leaks its block and the elements built; a copy assignment that throws leaves an array whose destructor destroys elements never built (every such assignment after every program: C131_fixedarray_assign_refuted). Proved for programs without a throwing copy assignment, with the exact list of leaks. Allocation failure is in C60, not combined with exceptions."
 },
 "C132": {
  "note": "Refuted as stated: an assignment whose construction throws leaves impl_ pointing to the callable already destroyed, or to a buffer never filled (every bad assignment after every program). Proved for programs without a bad assignment: constructors of every kind, Functions or large callables assigned to empty Functions, all moves of large callables. Sources of copies are const Functions."
 },
 "C133": {
  "note": "Refuted as stated: a throw inside HashTable::add leaves an entry counted and found with no payload in it, and a throw inside a resize leaves a half-filled new table and leaks the old one (every reachable table, every such call). Proved: exceptions while HashMap::add builds its Entry leave the map unchanged, in every program. Hashes and comparisons that throw: C136. Destructors that throw are not modelled."
 },
 "C134": {
  "note": "Refuted as stated: an add whose comparison throws loses the item and leaves a moved-from item in the queue (after every history); a pop that throws loses the item it would have returned. Proved: until an add throws nothing faults and the queue is a bag; after a throwing pop the order is not promised. Moves of T do not throw."
 },
 "C135": {
  "note": "The clients' obligations are those of C39-C42. The bound is sharp: with 2^w + 1 references one release deletes the object under the other 2^w (C135_more_references_delete_early); AddRef has no check. Covers RefcountedThreadsafe and (as far as C40 goes) VirtualRefcountedThreadsafe."
 },
 "C136": {
  "note": "C118 for policies with state (its simplification 'one function per call' is gone) and exceptions. The policy does not call back into the table (HashReenter*.v has destructors that do)."
 },
 "C137": {
  "note": "Proved: whatever throws, a program that is in control after its scopes has run or cancelled each guard exactly once and has no guard left; SaveAndSet restores its location on every exit except that of its own constructor, and with a T whose failed assignments change nothing, on that one too; where no copy and no callback throws, nothing is terminated; ReturnAndVoid is all or nothing when its return value is elided. Refuted: a copy back or a callback that throws in a destructor, or a callback whose move throws (noexcept constructor), terminates the program whatever handlers there are; a failed assignment in SaveAndSet's constructor stays although the old value was saved; ReturnAndVoid loses the value when the move of an unelided return value throws."
 },
 "C138": {
  "note": "Refuted: any add to a queue with items whose third move throws (there always is one) loses the new item and leaves a moved-from item in the queue; if the second throws, add() throws but the item is in the queue, in last place whatever its priority; a pop whose second move throws loses the item and leaves a moved-from item in first place. Proved: on a queue without moved-from items no call faults, a call that does not throw is that of the queue of C28, a call throws exactly when one of its moves does, and then loses at most the item added, or the item to be returned and one more; in every history, all results up to the first call that throws are in priority order. A failed move is taken to change nothing."
 }
}
