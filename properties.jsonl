{"id": "C01", "title": "Hash table refines an abstract collection", "statement": "After any sequence of findForAdd+add, removeIfExists, find+remove, clear and checkDensity on an initialised HashTable, find(k) is found() exactly when the abstract collection holds a payload matching k, and then yields that payload; findForAdd(k) agrees with find(k); elements are never lost, duplicated or resurrected by tombstones, growth or shrinking.", "quantifier": "all payload/key types, all hash functions (including constant ones), all matches() functions consistent with the hash, all initial power-of-two capacities, all finite operation histories, all malloc-failure schedules", "why_tests_cant": "Collisions, tombstone reuse, wrap-around of the probe and resizes interact; a test samples a few hash functions and histories.", "anchors": ["amtl/am-hashtable.h: HashTable::lookup, lookupForAdd, insertUnique, internalAdd, removeEntry, changeCapacity, clear, checkDensity"]}
{"id": "C02", "title": "Every lookup terminates", "statement": "find, findForAdd and the re-insertion performed by a resize always terminate on every reachable initialised table: the probe meets a stopping slot within capacity steps.", "quantifier": "all reachable table states, all keys, all hash functions", "why_tests_cant": "Non-termination needs a table with no free slot; only an invariant over all histories excludes it.", "anchors": ["amtl/am-hashtable.h: HashTable::lookup, lookupForAdd, insertUnique, overloaded, checkDensity, Probulator"]}
{"id": "C03", "title": "elements() and iteration are exact", "statement": "In every reachable state elements() equals the number of stored payloads, and iter()/empty()/next() visits every stored payload exactly once and nothing else.", "quantifier": "all reachable table states", "why_tests_cant": "Counts and positions depend on the whole history.", "anchors": ["amtl/am-hashtable.h: HashTable::elements, iterator"]}
{"id": "C04", "title": "Erasing while iterating", "statement": "A loop that calls iterator::erase() on the payloads satisfying any predicate and next() on every step visits each payload exactly once and leaves exactly the payloads not satisfying the predicate.", "quantifier": "all reachable table states, all predicates", "why_tests_cant": "The predicate and layout space is unbounded.", "anchors": ["amtl/am-hashtable.h: HashTable::iterator::erase, iterator::next, removeEntry"]}
{"id": "C05", "title": "A failed add changes nothing", "statement": "When add() returns false (allocation failure or capacity overflow with a fallible AllocPolicy) the collection, elements() and all later lookups are exactly as before and the table stays usable; add() fails only if an allocation was refused or the capacity limit was reached.", "quantifier": "all reachable states, all keys/payloads, all allocation-failure schedules", "why_tests_cant": "The failure can be injected at any point of any history.", "anchors": ["amtl/am-hashtable.h: HashTable::internalAdd, grow, shrink, changeCapacity, createTable"]}
{"id": "C06", "title": "Payload and block lifetimes", "statement": "Every payload placed in the table is destroyed exactly once (by remove, clear, resize-move or the destructor), payload storage is never read unless constructed, never constructed over a live payload, and no table memory is freed while holding a live payload. Between init() and the destructor the table owns exactly one heap block of estimateMemoryUse() bytes, and by the end of its life every block it took has been freed exactly once.", "quantifier": "all histories ending in destruction of the table", "why_tests_cant": "Double destruction/leaks depend on the history of resizes and removals.", "anchors": ["amtl/am-hashtable.h: HashTableEntry::construct, destruct, setRemoved, setFree; HashTable::changeCapacity, ~HashTable, clear"]}
{"id": "C07", "title": "A table whose init() failed can be destroyed", "statement": "If init() returns false because the allocator returned null, destroying the HashTable is well defined.", "quantifier": "all capacities, all allocation outcomes", "why_tests_cant": "Needs fault injection at exactly one point.", "anchors": ["amtl/am-hashtable.h: HashTable::init, ~HashTable"]}
{"id": "C08", "title": "Capacity overflow is reported, not asserted", "statement": "When growth would exceed the documented maximum capacity, add() reports allocation overflow through the AllocPolicy and returns false; it never trips an internal assertion.", "quantifier": "all entry sizes, all reachable states", "why_tests_cant": "The boundary lies at ~2^31 bytes, out of reach of unit tests.", "anchors": ["amtl/am-hashtable.h: HashTable::grow, changeCapacity, kMaxCapacity"]}
{"id": "C09", "title": "Move construction transfers the table", "statement": "Move-constructing a HashTable/HashMap/HashSet gives the new object exactly the old contents and leaves the source empty (elements()==0, iteration empty) and safely destructible.", "quantifier": "all reachable states", "why_tests_cant": "Must hold after every history.", "anchors": ["amtl/am-hashtable.h: HashTable::HashTable(HashTable&&)"]}
{"id": "C10", "title": "Capacity discipline", "statement": "In every reachable state the capacity is a power of two, never below the requested initial capacity (at least 16), at least one slot is free, and estimateMemoryUse() is capacity times the entry size.", "quantifier": "all reachable states, all initial capacities accepted by init()", "why_tests_cant": "Invariant over histories with growth, shrinking and failed allocations.", "anchors": ["amtl/am-hashtable.h: HashTable::init, underloaded, overloaded, shrink, grow, estimateMemoryUse"]}
{"id": "C11", "title": "The Insert object stays valid after add()", "statement": "After a successful add(i, payload), dereferencing i yields the payload just added, even if add() resized the table; writing a new value through it is what later finds of that key observe.", "quantifier": "all reachable states, keys, payloads", "why_tests_cant": "Only the resizing adds exercise the re-lookup, and at different positions.", "anchors": ["amtl/am-hashtable.h: HashTable::add, internalAdd", "amtl/am-hashmap.h: HashMap::add"]}
{"id": "C12", "title": "HashMap is a finite map", "statement": "For every history of HashMap operations (add if absent, overwrite through the Insert/Result, removeIfExists, clear), find(k) returns exactly the last value stored for k since its last removal, and elements() is the number of distinct keys present.", "quantifier": "all key/value types with decidable equality, all hash functions, all histories, all malloc-failure schedules", "why_tests_cant": "Unbounded histories and arbitrary hash collisions.", "anchors": ["amtl/am-hashmap.h: HashMap"]}
{"id": "C13", "title": "HashSet is a finite set", "statement": "For every history of HashSet::add(k), removeIfExists and clear, has(k) is true exactly when k was added since its last removal, adding twice is idempotent, and elements() is the cardinality.", "quantifier": "all key types, hash functions, histories", "why_tests_cant": "Unbounded histories and arbitrary hash collisions.", "anchors": ["amtl/am-hashset.h: HashSet::add, has, removeIfExists, clear, elements"]}
{"id": "C14", "title": "Stream hashing is chunk-independent", "statement": "Feeding CharacterStreamHasher any sequence of chunks gives the same result as hashing the concatenation with HashCharSequence; the result is always a 32-bit value.", "quantifier": "all byte strings and all ways of cutting them", "why_tests_cant": "All cut points of all strings.", "anchors": ["amtl/am-hashtable.h: CharacterStreamHasher::add, result, HashCharSequence"]}
{"id": "C15", "title": "FastHashCharSequence is the base-65599 polynomial hash", "statement": "FastHashCharSequence(s, n) equals sum(s[i] * 65599^(n-1-i)) modulo 2^32 with s[i] sign-extended chars.", "quantifier": "all byte strings of any length", "why_tests_cant": "All strings, wrap-around included.", "anchors": ["amtl/am-hashtable.h: FastHashCharSequence"]}
{"id": "C16", "title": "Integer hashing has no undefined behaviour", "statement": "HashInt32 and HashInt64 are defined for every input value.", "quantifier": "all 2^32 / 2^64 inputs", "why_tests_cant": "UB is silent; tests that pass prove nothing.", "anchors": ["amtl/am-hashtable.h: HashInt32, HashInt64"]}
{"id": "C17", "title": "HashInt32 separates distinct integers", "statement": "The Wang/Jenkins integer mix cited by the source is a bijection on 32-bit integers, so distinct keys get distinct hashes.", "quantifier": "all pairs of 32-bit inputs", "why_tests_cant": "Pairs space is 2^64.", "anchors": ["amtl/am-hashtable.h: HashInt32"]}
{"id": "C18", "title": "FindLeftmostBit32/64 and FindRightmostBit are exact", "statement": "For every non-zero input, FindLeftmostBit32/64 return the index of the highest set bit and FindRightmostBit the index of the lowest set bit, on every supported compiler/data model.", "quantifier": "all non-zero inputs; GCC LP64, GCC ILP32, MSVC x64/x86 variants", "why_tests_cant": "2^64 inputs and several platforms.", "anchors": ["amtl/am-bits.h: FindLeftmostBit32, FindLeftmostBit64, FindRightmostBit"]}
{"id": "C19", "title": "Log2 is the floor of the base-2 logarithm", "statement": "For every non-zero size_t n, Log2(n) is the index of its highest set bit.", "quantifier": "all non-zero size_t values, each compiler variant", "why_tests_cant": "2^64 inputs.", "anchors": ["amtl/am-bits.h: Log2"]}
{"id": "C20", "title": "IsPowerOfTwo is exact", "statement": "IsPowerOfTwo(n) is true iff n = 2^k for some k.", "quantifier": "all size_t values", "why_tests_cant": "2^64 inputs.", "anchors": ["amtl/am-bits.h: IsPowerOfTwo"]}
{"id": "C21", "title": "Align rounds up to the next multiple", "statement": "For a power-of-two alignment, Align(count, alignment) is the least multiple of alignment that is >= count whenever that multiple is representable; otherwise it wraps to 0.", "quantifier": "all counts, all power-of-two alignments", "why_tests_cant": "2^64 x 64 inputs including the wrap boundary.", "anchors": ["amtl/am-bits.h: Align"]}
{"id": "C22", "title": "IsAligned / AlignedBase agree with arithmetic", "statement": "IsAligned(a, n) iff n divides a; AlignedBase(a, n) is the greatest multiple of n that is <= a.", "quantifier": "all addresses, all power-of-two alignments", "why_tests_cant": "2^64 inputs.", "anchors": ["amtl/am-bits.h: IsAligned, AlignedBase"]}
{"id": "C23", "title": "Pointer tag bits round-trip", "statement": "For a pointer aligned to 2^N and tag bits < 2^N, GetPointerBits<N>(SetPointerBits(p,t)) = t and ClearPointerBits<N>(SetPointerBits(p,t)) = p, for every usable N.", "quantifier": "all aligned pointers, all tags, all N", "why_tests_cant": "All pointer values; and large N misbehave.", "anchors": ["amtl/am-bits.h: SetPointerBits, GetPointerBits, ClearPointerBits"]}
{"id": "C24", "title": "Multiply-overflow guard is sound", "statement": "IsUint32MultiplySafe/IsUint64MultiplySafe/IsUintPtrMultiplySafe(a,b) return true only if a*b fits the type (and false only if it does not).", "quantifier": "all pairs of inputs", "why_tests_cant": "2^64..2^128 pairs; the unit test checks two.", "anchors": ["amtl/am-bits.h: IsUintMultiplySafe"]}
{"id": "C25", "title": "Add-overflow guard is sound", "statement": "IsUint32AddSafe/IsUint64AddSafe/IsUintPtrAddSafe(a,b) return true only if a+b fits the type.", "quantifier": "all pairs of inputs", "why_tests_cant": "Not tested at all; 2^64 pairs.", "anchors": ["amtl/am-bits.h: IsUintAddSafe"]}
{"id": "C26", "title": "TryUint32Add / TryUint64Add are exact", "statement": "They return true iff the mathematical sum fits, then store exactly that sum; otherwise they return false and leave *out untouched.", "quantifier": "all pairs of inputs and prior *out values", "why_tests_cant": "2^64/2^128 pairs.", "anchors": ["amtl/am-arithmetic.h: TryUint32Add, TryUint64Add"]}
{"id": "C27", "title": "TryUint64Multiply is exact", "statement": "It returns true iff the mathematical product fits in 64 bits, then stores exactly that product; otherwise returns false and leaves *out untouched.", "quantifier": "all pairs of inputs", "why_tests_cant": "2^128 pairs.", "anchors": ["amtl/am-arithmetic.h: TryUint64Multiply"]}
{"id": "C28", "title": "PriorityQueue pops in priority order", "statement": "In every reachable queue, peek() and pop() return an element than which no other stored element has higher priority; pop() removes exactly that one element and add()/emplace() adds exactly one.", "quantifier": "all element types, all strict weak orders, all histories of add/pop", "why_tests_cant": "Heap shapes and orders are unbounded.", "anchors": ["amtl/am-priority-queue.h: PriorityQueue::add, emplace, peek, pop, propagateUp, propagateDown"]}
{"id": "C29", "title": "Draining a PriorityQueue sorts", "statement": "Adding any list of items and popping until empty() yields a permutation of the items in which no later item has higher priority than an earlier one.", "quantifier": "all lists, all strict weak orders", "why_tests_cant": "All lists.", "anchors": ["amtl/am-priority-queue.h: PriorityQueue"]}
{"id": "C30", "title": "PriorityQueue never uses moved-from or out-of-range elements", "statement": "No operation compares, moves or returns an element slot that has been moved from, and no index is out of range, for any comparator (even one that is not an order); pop/peek on empty is the only precondition.", "quantifier": "all histories, all comparators", "why_tests_cant": "Moved-from reads are silent for most T.", "anchors": ["amtl/am-priority-queue.h: propagateUp, propagateDown, pop"]}
{"id": "C31", "title": "InlineList keeps insertion order", "statement": "For any history of append/remove/erase over any number of lists, forward iteration of each list yields its nodes in append order, reverse iteration the reverse, empty() and begin()==end() agree, and other lists are unaffected.", "quantifier": "all legal histories over any number of lists and nodes, debug and release builds", "why_tests_cant": "Pointer surgery over arbitrary histories.", "anchors": ["amtl/am-inlinelist.h: InlineList::append, remove, erase, iterator, reverse_iterator, empty"]}
{"id": "C32", "title": "InlineList::length() is exact", "statement": "length() always equals the number of nodes iteration yields, whichever removal API (remove, erase, removeFromParentList) was used.", "quantifier": "all legal histories", "why_tests_cant": "Every mix of removal APIs.", "anchors": ["amtl/am-inlinelist.h: length, remove, InlineListNode::removeFromParentList"]}
{"id": "C33", "title": "isInList() is exact", "statement": "A node's isInList() is true iff it is currently linked in some list.", "quantifier": "all legal histories, debug and release builds", "why_tests_cant": "Depends on build mode and history.", "anchors": ["amtl/am-inlinelist.h: InlineListNode::isInList, InlineList::remove"]}
{"id": "C34", "title": "Erase-while-iterating and destructor unlinking", "statement": "Iterating and erasing the nodes that satisfy a predicate visits every node once and leaves exactly the others; in debug builds destroying a list unlinks all its nodes so they can be appended elsewhere.", "quantifier": "all lists, all predicates", "why_tests_cant": "All lists and predicates.", "anchors": ["amtl/am-inlinelist.h: erase, ~InlineList"]}
{"id": "C35", "title": "RefPtr keeps objects alive exactly as long as referenced", "statement": "For any history of RefPtr/AlreadyRefed construction, copy, move, adopt, forget, assignment (from a different RefPtr, a raw pointer owned elsewhere, an AlreadyRefed) and destruction, including objects that own further RefPtrs: an object is destroyed exactly when its last reference goes away, never earlier, never twice; the reference count always equals the number of handles.", "quantifier": "all object graphs, all legal histories", "why_tests_cant": "Object graphs and histories are unbounded.", "anchors": ["amtl/am-refcounting.h: RefPtr, AlreadyRefed, Refcounted::AddRef, Refcounted::Release"]}
{"id": "C36", "title": "Self-assignment of RefPtr is harmless", "statement": "p = p (or p = p.get()) leaves p holding the same live object.", "quantifier": "all reference counts", "why_tests_cant": "UB may go unnoticed.", "anchors": ["amtl/am-refcounting.h: RefPtr::operator=(const RefPtr&), operator=(S*)"]}
{"id": "C37", "title": "Assigning from a member of the held object is safe", "statement": "head = head->next (assignment from a RefPtr stored in the object being released) leaves head holding next.", "quantifier": "all object chains", "why_tests_cant": "Use-after-free is silent.", "anchors": ["amtl/am-refcounting.h: RefPtr::operator=(const RefPtr&)"]}
{"id": "C38", "title": "Ownership transfer does not change counts", "statement": "take(), forget(), AdoptRef and move construction/assignment transfer a reference without changing the object's reference count and leave the source null.", "quantifier": "all states", "why_tests_cant": "All states.", "anchors": ["amtl/am-refcounting.h: RefPtr::take, forget, AlreadyRefed::take, AdoptRef, RefPtr(RefPtr&&)"]}
{"id": "C39", "title": "RefcountedThreadsafe deletes once under any interleaving", "statement": "With any number of threads adding and releasing references they own, the object is deleted exactly once, by the release of the last reference, its deletion assertion never fails, and no thread touches it afterwards.", "quantifier": "all numbers of threads, all interleavings of atomic steps", "why_tests_cant": "Schedules cannot be enumerated by tests.", "anchors": ["amtl/am-refcounting-threadsafe.h: RefcountedThreadsafe::AddRef, Release"]}
{"id": "C40", "title": "VirtualRefcountedThreadsafe deletes on last release", "statement": "When the last owned reference to a VirtualRefcountedThreadsafe object is released, the object is deleted.", "quantifier": "all reference counts and schedules", "why_tests_cant": "A leak is not observed by a passing test.", "anchors": ["amtl/am-refcounting-threadsafe.h: VirtualRefcountedThreadsafe::Release"]}
{"id": "C41", "title": "AtomicRef never yields a dead object", "statement": "With any number of threads concurrently calling get() and assigning an AtomicRef, every non-null pointer returned by get() is alive and carries its own reference; no reference count is ever touched after the object is destroyed; internal assertions never fail.", "quantifier": "all numbers of threads, all interleavings (sequentially consistent), all aligned object addresses", "why_tests_cant": "Races.", "anchors": ["amtl/am-refcounting-threadsafe.h: AtomicRef::get, operator=, lock, unlock"]}
{"id": "C42", "title": "AtomicRef is linearizable as an atomic register", "statement": "The critical section is mutually exclusive, each get() returns the value most recently stored at its linearization point, and when no operation is in progress every object's count equals handles held plus one if stored in the AtomicRef.", "quantifier": "all interleavings", "why_tests_cant": "Races.", "anchors": ["amtl/am-refcounting-threadsafe.h: AtomicRef::lock, unlock"]}
{"id": "C43", "title": "SafeStrcpy truncates, terminates and stays in bounds", "statement": "For a buffer of at least maxlength>0 bytes, SafeStrcpy writes exactly the first min(strlen(src), maxlength-1) bytes of src followed by one NUL, touches nothing else, and returns that length; null dest or zero maxlength writes nothing and returns 0.", "quantifier": "all sources, all buffer contents, all maxlength", "why_tests_cant": "All sizes; OOB is silent.", "anchors": ["amtl/am-string.h: SafeStrcpy"]}
{"id": "C44", "title": "SafeStrcat truncates, terminates and stays in bounds", "statement": "For a NUL-terminated dest, SafeStrcat appends as many bytes of src as fit in maxlength-1 total, terminates, never writes outside maxlength or the existing string, and returns the new length; if dest already fills maxlength it is unchanged.", "quantifier": "all dest/src strings, all maxlength", "why_tests_cant": "All sizes.", "anchors": ["amtl/am-string.h: SafeStrcat"]}
{"id": "C45", "title": "SafeStrcpyN copies at most n characters of the string", "statement": "Same as SafeStrcpy but copying at most n characters: result is the first min(n, strlen(src), maxlength-1) characters, NUL-terminated, reading nothing past src's terminator.", "quantifier": "all sources, n, maxlength", "why_tests_cant": "Reads past the terminator are silent.", "anchors": ["amtl/am-string.h: SafeStrcpyN"]}
{"id": "C46", "title": "SafeSprintf is bounded and terminated", "statement": "SafeVsprintf/SafeSprintf always leave a NUL inside maxlength bytes, write nothing beyond, return a value < maxlength, and when formatting succeeds the buffer holds the first min(len, maxlength-1) characters of the formatted text and that count is returned, with both C99 vsnprintf and MSVC _vsnprintf.", "quantifier": "all formatted texts, all maxlength, both libc behaviours", "why_tests_cant": "All lengths around the boundary.", "anchors": ["amtl/am-string.h: SafeVsprintf, SafeSprintf"]}
{"id": "C47", "title": "StringPrintf returns exactly the formatted text", "statement": "StringPrintf/Sprintf return exactly the formatted text for every length (two-pass), allocate length+1 bytes and never overrun; a formatting error yields an empty string / null.", "quantifier": "all formatted texts", "why_tests_cant": "All lengths.", "anchors": ["amtl/am-string.h: SprintfArgsImpl, StringPrintfVa, Sprintf"]}
{"id": "C48", "title": "Join inverts Split", "statement": "Join(Split(str, sep), sep) == str for every C string str and non-empty sep.", "quantifier": "all strings, all non-empty separators", "why_tests_cant": "All strings.", "anchors": ["amtl/am-string.h: Split, Join"]}
{"id": "C49", "title": "Split(const std::string&) round-trips too", "statement": "Join(Split(str, sep), sep) == str for every std::string.", "quantifier": "all std::string values, embedded NULs included", "why_tests_cant": "Embedded NUL is never tested.", "anchors": ["amtl/am-string.h: Split(const std::string&, const char*)"]}
{"id": "C50", "title": "Split is the leftmost greedy split", "statement": "Split cuts at every leftmost non-overlapping occurrence of sep: no piece contains sep, the pieces are uniquely determined, the empty string gives no pieces; and Split(Join(ps, c), c) == ps for single-character c not occurring in ps unless ps is the single empty piece.", "quantifier": "all strings and separators", "why_tests_cant": "All strings.", "anchors": ["amtl/am-string.h: Split"]}
{"id": "C51", "title": "Join concatenates with separators in bounds", "statement": "Join(ps, sep) is the pieces separated by sep, computed with an exactly sized buffer that is never overrun and completely filled.", "quantifier": "all lists of strings, all separators (empty allowed)", "why_tests_cant": "All lists.", "anchors": ["amtl/am-string.h: Join"]}
{"id": "C52", "title": "StartsWith / EndsWith are exact", "statement": "StartsWith(a,b) iff b is a prefix of a; EndsWith(a,b) iff b is a suffix of a.", "quantifier": "all strings", "why_tests_cant": "All strings.", "anchors": ["amtl/am-string.h: StartsWith, EndsWith"]}
{"id": "C53", "title": "Uppercase / Lowercase are total and idempotent", "statement": "Uppercase and Lowercase keep the length, map ASCII letters, leave other bytes unchanged, are idempotent, and are defined for every byte string.", "quantifier": "all byte strings", "why_tests_cant": "Bytes >= 0x80 are UB with signed char and never tested.", "anchors": ["amtl/am-string.h: Uppercase, Lowercase"]}
{"id": "C54", "title": "path::Format normalises separators", "statement": "path::Format produces the SafeSprintf result with every foreign separator replaced by the native one and nothing else changed.", "quantifier": "all formatted texts, all maxlength, both platforms", "why_tests_cant": "All texts.", "anchors": ["amtl/os/am-path.h: FormatVa, Format"]}
{"id": "C55", "title": "Maybe has value semantics", "statement": "Copying/moving/assigning/initialising Maybe between distinct objects makes the destination equal the source's prior value; a moved-from Maybe is empty; the source of a copy is unchanged.", "quantifier": "all histories between distinct Maybe objects", "why_tests_cant": "All histories.", "anchors": ["amtl/am-maybe.h: Maybe, Some"]}
{"id": "C56", "title": "Maybe destroys what it constructs", "statement": "Every T constructed inside a Maybe is destroyed exactly once by the time the Maybe is destroyed.", "quantifier": "all histories", "why_tests_cant": "Leaks are silent.", "anchors": ["amtl/am-maybe.h: Maybe::operator=, moveFrom"]}
{"id": "C57", "title": "Maybe self-assignment keeps the value", "statement": "m = m leaves m unchanged.", "quantifier": "all values", "why_tests_cant": "Never tested.", "anchors": ["amtl/am-maybe.h: Maybe::operator=(const Maybe&)"]}
{"id": "C58", "title": "FixedArray holds what it was given", "statement": "A FixedArray constructed with size n has n value-initialised elements; copies (from arrays or vectors) are element-wise equal and independent; at(i) reads the last value written at i; == is element-wise equality.", "quantifier": "all sizes, all element values, all write histories", "why_tests_cant": "All sizes and histories.", "anchors": ["amtl/am-fixedarray.h: FixedArray"]}
{"id": "C59", "title": "FixedArray never leaks or double frees", "statement": "Every block allocated and element constructed by FixedArray operations is released exactly once.", "quantifier": "all histories of construction, copy/move assignment and destruction", "why_tests_cant": "Leaks are silent.", "anchors": ["amtl/am-fixedarray.h: operator=, ~FixedArray"]}
{"id": "C60", "title": "FixedArray tolerates allocation failure and size overflow", "statement": "If allocation fails (fallible policy) or sizeof(T)*size overflows, construction and destruction remain memory safe.", "quantifier": "all sizes, all allocation outcomes", "why_tests_cant": "Needs fault injection / huge sizes.", "anchors": ["amtl/am-fixedarray.h: allocate, destruct, initialize"]}
{"id": "C61", "title": "Function calls what was stored", "statement": "After construction/assignment from a callable, copy or move, invoking the Function runs that callable; a moved-from Function is empty; copies are independent.", "quantifier": "all histories between distinct Function objects, all callable sizes", "why_tests_cant": "All histories and sizes.", "anchors": ["amtl/am-function.h: Function"]}
{"id": "C62", "title": "Function lifetimes and inline storage", "statement": "Every callable copy created by Function is destroyed exactly once; storage is inline exactly when the holder fits the 3-word buffer.", "quantifier": "all histories between distinct Function objects", "why_tests_cant": "Leaks/double destroys are silent.", "anchors": ["amtl/am-function.h: assign, move, destroy, zap, usingInlineStorage"]}
{"id": "C63", "title": "Copying an empty Function gives an empty Function", "statement": "Copy construction/assignment from any empty Function gives an empty Function.", "quantifier": "const and non-const sources", "why_tests_cant": "Overload resolution differs by constness.", "anchors": ["amtl/am-function.h: Function(T&&), operator=(T&&), assign"]}
{"id": "C64", "title": "Function self-assignment is harmless", "statement": "f = f and f = std::move(f) are well defined.", "quantifier": "all stored callables", "why_tests_cant": "UB is silent.", "anchors": ["amtl/am-function.h: operator=(const Function&), operator=(Function&&)"]}
{"id": "C65", "title": "Callables of up to three words are stored inline (README)", "statement": "Callable objects within the 3-word buffer size never use new.", "quantifier": "all callable sizes", "why_tests_cant": "Size boundary.", "anchors": ["amtl/am-function.h: assign, kMinFunctionInlineBufferSize", "README.md"]}
{"id": "C66", "title": "Flags are bit sets", "statement": "For Flags<T>, + and | are union, - is set difference, & intersection, ^ symmetric difference, ! emptiness, == extensional equality, and compound assignments agree; KE_DEFINE_ENUM_OPERATORS likewise with ~ as complement in the underlying width.", "quantifier": "all flag values of any width", "why_tests_cant": "2^64 pairs.", "anchors": ["amtl/am-flags.h: Flags", "amtl/am-enum.h: KE_DEFINE_ENUM_OPERATORS"]}
{"id": "C67", "title": "SaveAndSet restores", "statement": "Inside a SaveAndSet scope the location initially holds the new value, and on exit it holds the value from before the scope whatever the body did, for arbitrarily nested scopes.", "quantifier": "all nested programs", "why_tests_cant": "Nesting is unbounded.", "anchors": ["amtl/am-raii.h: SaveAndSet"]}
{"id": "C68", "title": "ScopeGuard runs its callback exactly once unless cancelled", "statement": "Over any history of moving and cancelling, when all guard objects are destroyed the callback has run exactly once, or not at all if the guard holding it was cancelled.", "quantifier": "all move/cancel/destroy histories", "why_tests_cant": "All histories.", "anchors": ["amtl/am-raii.h: ScopeGuard, MakeScopeGuard"]}
{"id": "C69", "title": "StackLinked maintains the list head", "statement": "With properly nested lifetimes, the head pointer always refers to the innermost live object, following prev links enumerates live objects innermost first, and the destructor assertion never fails.", "quantifier": "all nested scopes", "why_tests_cant": "Nesting is unbounded.", "anchors": ["amtl/am-raii.h: StackLinked"]}
{"id": "C70", "title": "ThreadLocal isolates threads", "statement": "Once storage is allocated, get() on a thread returns the value this thread last set, or the zero value if it never set one, regardless of other threads.", "quantifier": "all threads, all interleavings of set/get", "why_tests_cant": "Schedules.", "anchors": ["amtl/am-threadlocal.h: ThreadLocal::get, set"]}
{"id": "C71", "title": "Concurrent first use of ThreadLocal is safe", "statement": "Two threads may race on the first set()/allocate(); neither uses an uncreated key; an allocation failure is reported to every caller.", "quantifier": "all interleavings, all pthread_key_create outcomes", "why_tests_cant": "Race window.", "anchors": ["amtl/am-threadlocal.h: allocate, set"]}
{"id": "C72", "title": "Mutex ownership assertion is exact", "statement": "In debug builds AssertCurrentThreadOwns() passes exactly when the calling thread holds the lock, however it was acquired.", "quantifier": "all threads and histories of lock/try_lock/unlock", "why_tests_cant": "Schedules.", "anchors": ["amtl/am-mutex.h: Mutex"]}
{"id": "C73", "title": "Argument parsing assigns exactly the given values", "statement": "For options with distinct names, any command line rendered from a list of option settings (as --long=v, --long v, -s v, -s=v, toggles, enables with --no-) and positionals parses successfully, every mentioned option holds the rendered value (repeat options hold all values in order), and every other option keeps its default.", "quantifier": "all option sets, all values, all orders and spellings", "why_tests_cant": "Combinatorial.", "anchors": ["amtl/experimental/am-argparser.h: Parser::parse_impl, Option, EnableOption, ToggleOption, RepeatOption"]}
{"id": "C74", "title": "Parsing is free of undefined behaviour", "statement": "parse() dereferences no null pointer and hands no null string to a value policy, for every argument vector.", "quantifier": "all argument vectors, all option sets and parser modes", "why_tests_cant": "Crash inputs.", "anchors": ["amtl/experimental/am-argparser.h: Parser::parse_impl"]}
{"id": "C75", "title": "Malformed command lines are rejected", "statement": "An unknown option, a repeated non-repeat option, a missing required value, a value on a value-less option, an unparsable value, an extra argument (when not collected) or a missing positional makes parse() return false.", "quantifier": "all argument vectors", "why_tests_cant": "Combinatorial.", "anchors": ["amtl/experimental/am-argparser.h: Parser::parse_impl"]}
{"id": "C76", "title": "Extra and positional arguments keep their order", "statement": "Non-option arguments fill the positionals in order, and, when collection is enabled, the remaining ones appear in extra_args() in order.", "quantifier": "all argument vectors", "why_tests_cant": "Combinatorial.", "anchors": ["amtl/experimental/am-argparser.h: Parser::parse_impl, extra_args"]}
{"id": "C77", "title": "Everything after -- is passed through", "statement": "With passthrough enabled, all arguments after the first -- appear in passthrough_args() unchanged and in order.", "quantifier": "all argument vectors", "why_tests_cant": "A second -- is not tested.", "anchors": ["amtl/experimental/am-argparser.h: allow_passthrough_args, passthrough_args"]}
{"id": "C78", "title": "A stop option halts parsing", "statement": "When a StopOption is met, no later argument has any effect and missing positionals are not an error; parse() is true unless it was the help option.", "quantifier": "all argument vectors", "why_tests_cant": "All suffixes.", "anchors": ["amtl/experimental/am-argparser.h: StopOption, haltOnValue"]}
{"id": "C79", "title": "reset() restores the initial state", "statement": "After reset(), parsing behaves as on a fresh parser with the same options.", "quantifier": "all previous command lines", "why_tests_cant": "All histories.", "anchors": ["amtl/experimental/am-argparser.h: Parser::reset"]}
{"id": "C80", "title": "Boolean options given on the command line take effect", "statement": "An Option<bool> mentioned on the command line ends up with a value: true if no boolean literal follows, and an invalid inline value is rejected.", "quantifier": "all argument vectors", "why_tests_cant": "The following argument decides.", "anchors": ["amtl/experimental/am-argparser.h: ValuePolicy<bool>, Parser::parse_impl"]}
{"id": "C81", "title": "Integer options are exact", "statement": "IntOption accepts exactly the decimal integers in the range of int and stores their value; anything else is rejected.", "quantifier": "all strings", "why_tests_cant": "All strings, range boundary.", "anchors": ["amtl/experimental/am-argparser.h: ValuePolicy<int>::consumeValue"]}
{"id": "C82", "title": "Usage text wraps without losing words", "statement": "The help column printed by usage() contains exactly the words of the help text in order, and each line fits the column unless it is a single over-long word.", "quantifier": "all help texts", "why_tests_cant": "All texts.", "anchors": ["amtl/experimental/am-argparser.h: Parser::usage"]}
{"id": "C83", "title": "IsInfinite is true exactly for infinities", "statement": "IsInfinite<float>(v) and IsInfinite<double>(v) are true iff v is +/-infinity.", "quantifier": "all 2^32 / 2^64 bit patterns", "why_tests_cant": "All bit patterns.", "anchors": ["amtl/am-float.h: IsInfinite"]}
{"id": "C84", "title": "FloatModulo follows its documented special cases", "statement": "x or y NaN, x infinite, or y zero give NaN; y infinite gives x; x zero gives x - on the Windows path as well.", "quantifier": "all classes of operands", "why_tests_cant": "All operand classes.", "anchors": ["amtl/am-float.h: FloatModulo"]}
{"id": "C85", "title": "Timespec conversion is exact", "statement": "TimespecToDuration(ts) is tv_sec*10^9+tv_nsec nanoseconds whenever representable; conversion to a clock's time_point truncates to the clock resolution.", "quantifier": "all timespecs", "why_tests_cant": "Overflow boundary.", "anchors": ["amtl/am-time.h: TimespecToDuration, TimespecToTimePoint, EpochValueToTimePoint"]}
{"id": "C86", "title": "Vector and deque helpers are exact", "statement": "MoveExtend appends all of src to dest in order and empties src; PopBack/PopFront return and remove the end element; RemoveAt/InsertAt/EmplaceAt/EraseIf do exactly what their names say and preserve the order of the rest.", "quantifier": "all vectors, positions, predicates", "why_tests_cant": "All sizes.", "anchors": ["amtl/am-vector.h", "amtl/am-deque.h"]}
{"id": "C87", "title": "MoveExtend with dest == src terminates", "statement": "MoveExtend(&v, &v) terminates and stays well defined.", "quantifier": "all vectors", "why_tests_cant": "A hang.", "anchors": ["amtl/am-vector.h: MoveExtend"]}
{"id": "C88", "title": "SharedLib closes every library exactly once", "statement": "For every Open history, each successfully opened handle is closed exactly once when its last reference goes away, failed opens close nothing, and the error buffer is always terminated.", "quantifier": "all open/reference histories, all dlopen outcomes", "why_tests_cant": "Fault injection and histories.", "anchors": ["amtl/os/am-shared-library.h: SharedLib"]}
{"id": "C89", "title": "TextRewriter applies edits faithfully", "statement": "For non-overlapping edits at distinct offsets inside the text, emit() returns the original text with exactly those edits applied.", "quantifier": "all texts, all sets of edits in any registration order", "why_tests_cant": "All texts and edits.", "anchors": ["tools/restyler/amstyler.cpp: TextRewriter::emit"]}
{"id": "C90", "title": "TextRewriter accepts several edits at one position or at end of text", "statement": "emit() also handles two edits at the same offset and an insertion at the very end of the text.", "quantifier": "all texts", "why_tests_cant": "Assertion failures on rare inputs.", "anchors": ["tools/restyler/amstyler.cpp: TextRewriter::emit"]}
{"id": "C91", "title": "FormatSystemError always terminates its buffer", "statement": "After FormatSystemErrorCode(code, error, maxlength) with maxlength > 0, error holds a terminated message within maxlength bytes and nothing beyond was written, whatever the system does.", "quantifier": "all buffers, limits and outcomes of the system call", "why_tests_cant": "Depends on how the system call fails.", "anchors": ["amtl/os/am-system-errors.h: FormatSystemErrorCode, FormatSystemError"]}
{"id": "C92", "title": "Thread-safe reference counting is safe on weakly ordered hardware", "statement": "With atomics that behave only as the C++ memory model promises for the memory orders the code uses (not sequentially consistently), clients of RefcountedThreadsafe that own what they release never cause a use after free, a double deletion or a data race between the construction, use and deletion of an object; every object is deleted at most once, and when no operation is in progress an object is alive iff something refers to it.", "quantifier": "all numbers of threads, all executions the memory model allows (which message every atomic access reads, where every store goes), with and without reuse of addresses", "why_tests_cant": "Weak-memory executions rarely show up on the test hardware, and cannot be enumerated.", "anchors": ["amtl/am-refcounting-threadsafe.h: RefcountedThreadsafe::AddRef, Release"]}
{"id": "C93", "title": "AtomicRef is safe and linearizable on weakly ordered hardware", "statement": "The same for AtomicRef: concurrent get(), assignment and destruction cause no use after free, no double deletion and no data race, and what clients observe is what some sequentially consistent execution would show; in particular get() and assignment are linearizable.", "quantifier": "all executions the memory model allows, any number of threads and AtomicRefs", "why_tests_cant": "Requires a particular reuse of an address at a particular moment on weakly ordered hardware.", "anchors": ["amtl/am-refcounting-threadsafe.h: AtomicRef::lock, unlock, get, operator=, ~AtomicRef"]}
{"id": "C94", "title": "Restyling changes only white space", "statement": "The text the restyler writes has the same characters in the same order as its input, apart from white space; literals and comments are unchanged.", "quantifier": "all source texts, all syntax trees, all lexers", "why_tests_cant": "Every layout of every source.", "anchors": ["tools/restyler/amstyler.cpp: MyASTVisitor"]}
{"id": "C95", "title": "The restyler returns on every source", "statement": "On a source that clang accepts the restyler fails no assertion, dereferences no null pointer and does not loop for ever.", "quantifier": "all source texts and syntax trees, debug and release builds", "why_tests_cant": "Every layout of every source.", "anchors": ["tools/restyler/amstyler.cpp: MyASTVisitor"]}
{"id": "C96", "title": "The restyler applies its documented rules, and only then", "statement": "The brace of an if/while/switch/for/catch whose parentheses span lines, and of a function whose name is in the first column or whose prototype spans lines, moves to its own line with the indentation of the line where the statement starts, exactly if it was on the line of the closing parenthesis; the braces of an empty function are joined; a comma in front of an initializer moves behind the initializer before it; \"operator\" is separated from its symbol. No other edit is made in a file.", "quantifier": "all texts, positions, and files with any number of statements and functions", "why_tests_cant": "All layouts.", "anchors": ["tools/restyler/amstyler.cpp: maybeSplitBrace, VisitFunctionDecl, maybeFixEmptyFunction, getIndentForLine"]}
{"id": "C97", "title": "Restyling is idempotent", "statement": "Running the restyler on its own output changes nothing.", "quantifier": "all texts", "why_tests_cant": "All layouts, repeated runs.", "anchors": ["tools/restyler/amstyler.cpp: MyASTVisitor"]}
{"id": "C98", "title": "The restyler does not lose files", "statement": "With -i, at every moment the file has either its old or its complete new text; failure is reported and leaves the file as it was; a failing file does not stop the others; without -i nothing is written.", "quantifier": "all inputs, crash points, write errors", "why_tests_cant": "Crash points and full disks.", "anchors": ["tools/restyler/amstyler.cpp: ToolMain::RunForPath, ToolMain::Run"]}
{"id": "C99", "title": "The include paths are those the compiler lists", "statement": "The search paths are exactly the trimmed non-blank lines between the two marker lines of the compiler's output.", "quantifier": "all outputs of the compiler", "why_tests_cant": "Unusual outputs (long lines, no compiler).", "anchors": ["tools/restyler/amstyler.cpp: ToolMain::GetSearchPaths"]}
{"id": "C100", "title": "Operations on an AtomicRef complete under every fair scheduler", "statement": "From every reachable state, if every thread keeps getting turns, all operations in progress on AtomicRefs complete; only the wait for the lock is unbounded: any operation past it completes within seven of its own turns whatever the others do.", "quantifier": "all reachable states, numbers of threads and cells, and fair schedules", "why_tests_cant": "Infinitely many schedules; a hang only shows under rare interleavings.", "anchors": ["amtl/am-refcounting-threadsafe.h: AtomicRef::lock, unlock, get, operator="]}
{"id": "C101", "title": "AtomicRef operations do not block each other", "statement": "AtomicRef is non-blocking: an operation of one thread completes even if other threads are suspended inside an operation or keep operating on the same AtomicRef.", "quantifier": "all reachable states and schedules, fair or not", "why_tests_cant": "Suspension at every point of every operation.", "anchors": ["amtl/am-refcounting-threadsafe.h: AtomicRef::lock, unlock"]}
{"id": "C102", "title": "Objects are stored at addresses suitable for their type", "statement": "The value of a Maybe, an inline Function callable, an entry of a HashMap or HashSet, and an element of a FixedArray lie inside their container's storage, apart from each other, and at a multiple of the alignment of their type.", "quantifier": "all sizes and alignments of the element type, all platform alignments, all addresses", "why_tests_cant": "Misalignment depends on the address the container happens to get.", "anchors": ["amtl/am-storagebuffer.h: StorageBuffer", "amtl/am-maybe.h: Maybe", "amtl/am-function.h: function storage", "amtl/am-hashtable.h: createTable", "amtl/am-fixedarray.h: FixedArray"]}
{"id": "C103", "title": "File queries say exactly what a path names", "statement": "PathExists, IsFile and IsDirectory return true exactly if the path, symbolic links followed, names something, a regular file, a directory; never both of the latter; on Windows exactly according to the attribute word.", "quantifier": "all file systems (links, loops, permissions), all paths, all attribute words", "why_tests_cant": "Tests only see the directories of the test machine.", "anchors": ["amtl/os/am-fsutil-posix.h: PathExists, IsFile, IsDirectory", "amtl/os/am-fsutil-windows.h: PathExists, IsFile, IsDirectory"]}
{"id": "C104", "title": "CreateDirectory creates, or changes nothing", "statement": "If CreateDirectory returns true the path did not exist, is now an empty directory and every other path still leads where it led; if it returns false nothing has changed; of any number of concurrent calls for a path that nobody removes at most one returns true; it succeeds if the path does not exist, the parent may be changed and there is room.", "quantifier": "all file systems, paths, rights, and histories of any number of processes", "why_tests_cant": "Races between processes.", "anchors": ["amtl/os/am-fsutil-posix.h: CreateDirectory"]}
{"id": "C105", "title": "NewThread runs the callable exactly once, with what it was given", "statement": "A successful NewThread leads to exactly one invocation of the callable, by the new thread and after the thread has the given name, with the arguments and the name as they were at the call (std::ref arguments: as they are at the invocation), whatever happens to the caller's variables and buffers afterwards; no other thread invokes it.", "quantifier": "all executions of any number of threads, all arguments, names, platforms", "why_tests_cant": "The race between the new thread and the caller reusing its buffers.", "anchors": ["amtl/am-thread.h: NewThread"]}
{"id": "C106", "title": "SetThreadName names the thread and leaves nothing behind", "statement": "After SetThreadName the current (or the given) thread has the given name; nothing else is changed, and no library reference is left.", "quantifier": "all names, platforms, states", "why_tests_cant": "System versions without SetThreadDescription, unusual names.", "anchors": ["amtl/am-thread.h: SetThreadName"]}
{"id": "C107", "title": "Every parse() overload reads the same command line", "statement": "parse(argc, argv) with argv[0] the program, parse(vector<const char*>), parse(vector<string>) and parsev(..., nullptr) give the same result and leave the parser in the same state for the same arguments.", "quantifier": "all parsers, parser states and argument lists", "why_tests_cant": "equality must hold for every argument list and state", "anchors": ["amtl/experimental/am-argparser.h: Parser::parse", "amtl/experimental/am-argparser.h: Parser::parsev"]}
{"id": "C108", "title": "A parser has the options registered for it, the first one owning a name", "statement": "After any sequence of constructions a Parser knows the help option (if it has a help text), then the static options constructed before it, then those constructed with it, in order; where names coincide the first registered option receives the argument.", "quantifier": "all histories of option and parser constructions, calls and resets", "why_tests_cant": "ranges over histories of constructions", "anchors": ["amtl/experimental/am-argparser.h: Parser::Parser", "amtl/experimental/am-argparser.h: Parser::add", "amtl/experimental/am-argparser.h: Parser::add_static_option", "amtl/experimental/am-argparser.h: Parser::find_long"]}
{"id": "C109", "title": "Parsers in one program do not influence each other", "statement": "What a Parser accepts and the values its options hold depend only on the calls made on that Parser.", "quantifier": "all histories over any number of parsers", "why_tests_cant": "ranges over all interleavings of calls on several parsers", "anchors": ["amtl/experimental/am-argparser.h: Parser::parse_impl", "amtl/experimental/am-argparser.h: Parser::reset", "amtl/experimental/am-argparser.cpp: Parser::sStaticOptions"]}
{"id": "C110", "title": "Destructors may use RefPtrs", "statement": "Whatever the destructors of counted objects do with RefPtrs (global ones and their own members: read, copy, reset, assign, create objects), no object is used after its destruction or destroyed twice, and whenever the program is at rest every object is alive exactly while a RefPtr refers to it, its count is the number of RefPtrs, and nothing is leaked.", "quantifier": "all classes and destructor bodies, all programs, all depths of nested destruction, debug and release builds", "why_tests_cant": "Re-entrancy depends on which object happens to lose its last reference in the middle of which statement.", "anchors": ["amtl/am-refcounting.h: RefPtr::operator =", "amtl/am-refcounting.h: RefPtr::~RefPtr", "amtl/am-refcounting.h: Refcounted::Release"]}
{"id": "C111", "title": "A rejected command line is explained", "statement": "A program that calls usage() when parse() returned false prints the usage line and a message that names the offending argument or option and the kind of mistake; after a request for help it prints the help text; an accepted command line leaves nothing to report.", "quantifier": "all parsers, texts and argument vectors", "why_tests_cant": "Which of the messages appears, with which name and value, depends on the whole command line and the parser's set-up.", "anchors": ["amtl/experimental/am-argparser.h: Parser::unrecognized_option", "amtl/experimental/am-argparser.h: Parser::option_invalid_value", "amtl/experimental/am-argparser.h: IOption::pretty_name", "amtl/experimental/am-argparser.h: Parser::usage"]}
{"id": "C112", "title": "Combining hashes keeps the second hash", "statement": "HashCombine(a, b) is a 32-bit hash, and for a fixed first hash different second hashes give different results.", "quantifier": "all 32-bit hashes", "why_tests_cant": "The collisions are pairs among 2^64 inputs; which they are follows only from the arithmetic.", "anchors": ["amtl/am-hashtable.h: HashCombine"]}
{"id": "C113", "title": "Resizing is constant work per add on average", "statement": "Over any history of a hash table the slots read and cleared by all its resizes together are at most a constant times the initial capacity plus a constant times the number of adds; a table doubles exactly when more than three quarters of its slots are in use and halves when fewer than a quarter are, only in add and checkDensity(), and never below the initial capacity.", "quantifier": "all histories, hash functions, initial capacities, allocation outcomes", "why_tests_cant": "An amortised bound is a statement about every history; thrashing between two sizes needs a particular interleaving of adds, removals and removed marks.", "anchors": ["amtl/am-hashtable.h: HashTable::checkDensity", "amtl/am-hashtable.h: HashTable::shrink", "amtl/am-hashtable.h: HashTable::grow", "amtl/am-hashtable.h: HashTable::underloaded", "amtl/am-hashtable.h: HashTable::overloaded"]}
{"id": "C114", "title": "The helpers of am-utility.h mean what they say", "statement": "IS_ALIGNED(addr, a) answers whether the power of two a divides the address, for every integer type a may have; ARRAY_LENGTH of an array is its number of elements; MemsetZero clears the object and nothing else.", "quantifier": "all addresses, alignments and integer types, 32- and 64-bit platforms, all array lengths and memories", "why_tests_cant": "Which operand types lose bits in the mask only shows at particular widths and addresses.", "anchors": ["amtl/am-utility.h: IS_ALIGNED", "amtl/am-utility.h: ARRAY_LENGTH", "amtl/am-utility.h: MemsetZero"]}
{"id": "C115", "title": "Integers survive being stored as pointers", "statement": "A value of an integer type put into a ThreadLocal comes back unchanged, and cast_to_pointer maps different values to different pointers.", "quantifier": "all integer types and values, 32- and 64-bit platforms", "why_tests_cant": "Values that do not survive exist only for some combinations of type and platform, among 2^64.", "anchors": ["amtl/am-utility.h: cast_to_pointer", "amtl/am-threadlocal.h: ThreadLocal::internalGet", "amtl/am-threadlocal.h: ThreadLocal::internalSet"]}
{"id": "C116", "title": "Callables may use Functions", "statement": "Whatever the bodies and destructors of callables do with Functions (call, test, clear, assign, move them, the one they are held by included), a Function behaves as an optional callable: no callable is used after its destruction, destroyed twice or leaked, and calls and destructions happen as if a Function that loses its callable were empty from then on.", "quantifier": "all callable classes, bodies, destructors and programs, all depths of nesting", "why_tests_cant": "Re-entrancy depends on which callable is destroyed in the middle of which statement.", "anchors": ["amtl/am-function.h: Function::operator =", "amtl/am-function.h: Function::destroy", "amtl/am-function.h: Function::move", "amtl/am-function.h: Function::operator ()"]}
{"id": "C117", "title": "Mutex regions exclude each other", "statement": "Threads that bracket their critical regions with lock() and unlock() and assert ownership only inside them never run two regions at once, never meet undefined behaviour or a failing assertion, and can always all finish, in debug and in release builds.", "quantifier": "all numbers of threads, programs and schedules, both builds", "why_tests_cant": "ranges over all interleavings, including those between taking the lock and recording the owner", "anchors": ["amtl/am-mutex.h: Mutex::lock", "amtl/am-mutex.h: Mutex::unlock", "amtl/am-mutex.h: Mutex::AssertCurrentThreadOwns"]}
{"id": "C118", "title": "A hash table stays intact whatever its HashPolicy answers", "statement": "Even if hash() and matches() answer inconsistently, from one call to the next or against each other, every call returns, touches only memory the table owns and constructs and destroys each payload once, and the table is a bag: a lookup yields one of its payloads accepted by matches or nothing, an add puts one payload in, a removal takes at most one out, iteration yields each payload once; none appears or is lost.", "quantifier": "all hash and matches functions, chosen anew for every call, all histories, capacities and configurations", "why_tests_cant": "An arbitrary policy breaks the search invariants in ways that depend on the whole history.", "anchors": ["amtl/am-hashtable.h: HashTable::lookup", "amtl/am-hashtable.h: HashTable::add", "amtl/am-hashtable.h: HashTable::remove", "amtl/am-hashtable.h: HashTable::changeCapacity"]}
{"id": "C119", "title": "A table accepts parts of its own payloads", "statement": "Adding to a hash table, set or map a payload built from a reference into one of the payloads it already holds has the effect of adding one built from a copy.", "quantifier": "all reachable tables, keys, payloads, conversions and allocation outcomes", "why_tests_cant": "The reference dies only when the add happens to resize the table, which depends on the whole history.", "anchors": ["amtl/am-hashtable.h: HashTable::add", "amtl/am-hashtable.h: HashTable::internalAdd", "amtl/am-hashset.h: HashSet::add", "amtl/am-hashmap.h: HashMap::add"]}
{"id": "C120", "title": "Containers use the AllocPolicy they are given", "statement": "A container asks the policy object passed to its constructor for memory, returns each block to the policy it came from, keeps the policy when it is moved, and allocPolicy() is that policy.", "quantifier": "all programs over HashTable, HashMap, HashSet and FixedArray objects, all policies, all allocation outcomes", "why_tests_cant": "Stateless policies hide every mix-up; which object is asked matters only for policies with state, along whole histories.", "anchors": ["amtl/am-hashtable.h: HashTable::allocPolicy", "amtl/am-hashmap.h: HashMap::allocPolicy", "amtl/am-hashset.h: HashSet::allocPolicy", "amtl/am-fixedarray.h: FixedArray::FixedArray"]}
{"id": "C121", "title": "Payload destructors may use the table", "statement": "When a HashTable, HashMap or HashSet destroys an element - in remove(), removeIfExists(), clear() or its own destructor - the element's destructor may itself call the table: the element is already out of the collection when its destructor runs, every other element is found, counted and removable as usual, and each payload is destroyed exactly once.", "quantifier": "every hash policy, every assignment of programs (lookups, removals, additions, clear, elements) to payload destructors, every sequence of client calls, every nesting of destructors", "why_tests_cant": "Re-entrancy multiplies the histories: which slots a nested lookup crosses depends on collisions and on how far an enclosing loop has come; a test sees one layout, and the failures (double destruction, missed elements) need particular collisions", "anchors": ["amtl/am-hashtable.h:HashTableEntry::destruct", "amtl/am-hashtable.h:HashTable::removeEntry", "amtl/am-hashtable.h:HashTable::clear", "amtl/am-hashtable.h:HashTable::~HashTable"]}
{"id": "C122", "title": "InlineList iterators survive changes elsewhere in the lists", "statement": "An iterator or reverse_iterator of an InlineList denotes its node whatever else happens: after any appends, removals, erasures, unlinkings, list constructions and destructions that leave its node in some list, incrementing it (prefix or postfix) yields the node that follows (or precedes) its node in the list that node is in at that time, or that list's end; copies, dereferences and comparisons agree with that; erase(it) removes exactly that node, returns the iterator to the next one, and leaves every other iterator as it was.", "quantifier": "every program over any number of lists, nodes and iterator variables, in debug and release builds, that advances or erases an iterator only while its node is in a list", "why_tests_cant": "The interleavings of list changes and of steps of several live iterators are unbounded; a test exercises a few erase-while-walking loops", "anchors": ["amtl/am-inlinelist.h:InlineList::iterator", "amtl/am-inlinelist.h:InlineList::reverse_iterator", "amtl/am-inlinelist.h:InlineList::erase", "amtl/am-inlinelist.h:InlineList::begin", "amtl/am-inlinelist.h:InlineList::rend"]}
{"id": "C123", "title": "Options and parsers may be destroyed in any order", "statement": "Options, positional options and parsers of am-argparser.h may be destroyed in any order: the objects that remain keep the values and the behaviour they would have had, a parser one of whose options has been destroyed may still parse and be reset, and new parsers may be constructed after a static option is gone.", "quantifier": "every program that constructs static and own options, positionals and parsers, parses, resets, reads values and destroys objects, in any order", "why_tests_cant": "Orders of construction, destruction and use are unbounded; the tests keep every option alive as long as its parser", "anchors": ["amtl/experimental/am-argparser.h:IOption::~IOption", "amtl/experimental/am-argparser.h:Option::~Option", "amtl/experimental/am-argparser.h:Parser::add", "amtl/experimental/am-argparser.h:Parser::reset", "amtl/experimental/am-argparser.h:Parser::parse_impl", "amtl/experimental/am-argparser.h:Parser::add_static_option", "amtl/experimental/am-argparser.h:Parser::usage"]}
{"id": "C124", "title": "What a header provides does not depend on the headers included before it", "statement": "What a header of amtl contributes to a translation unit, its code, the system headers it includes and the macros it defines, is the same whether it is included first, after any other headers of amtl, through another header, or several times; whether the unit is rejected does not depend on the order either.", "quantifier": "every environment of predefined macros that leaves the names of amtl alone, every sequence of includes of the headers of amtl, of any length and with repetitions", "why_tests_cant": "There are unboundedly many include sequences, and one test build sees one platform, one compiler and the few sequences of the test files", "anchors": ["amtl/am-float.h:FloatModulo", "amtl/os/am-system-errors.h:FormatSystemErrorCode", "amtl/am-string.h:KE_WINDOWS", "amtl/am-platform.h:KE_WINDOWS"]}
{"id": "C125", "title": "The platform macros name the operating system, the architecture and the compiler", "statement": "Whatever headers a translation unit includes, either none of the platform macros is defined, or exactly those of its operating system and family, exactly one architecture macro and exactly those of its compiler; KE_WINDOWS and KE_POSIX are never both defined.", "quantifier": "every environment of predefined macros that leaves the names of amtl alone, every sequence of includes of the headers of amtl", "why_tests_cant": "The environments are unbounded, and each test run sees the one it was built in", "anchors": ["amtl/am-platform.h:KE_WINDOWS", "amtl/am-platform.h:KE_POSIX", "amtl/am-platform.h:KE_ARCH_X64", "amtl/am-platform.h:KE_CXX_LIKE_GCC"]}
{"id": "C126", "title": "Compilers older than the supported ones are rejected, others are not", "statement": "A translation unit that includes am-cxx.h is rejected if the compiler is older than clang 3.4, GCC 4.9 or Visual Studio 2015, Apple's numbering of clang taken into account, or is none of these; with other compilers no choice of headers is rejected, except that am-string.h is rejected on unknown operating systems.", "quantifier": "every environment of predefined macros that leaves the names of amtl alone, every sequence of includes of the headers of amtl", "why_tests_cant": "A test run sees one compiler in one version, and an unsupported one runs no tests", "anchors": ["amtl/am-cxx.h:KE_CLANG_AT_LEAST", "amtl/am-cxx.h:KE_CLANG_MAJOR", "amtl/am-cxx.h:KE_GCC_AT_LEAST", "amtl/am-string.h:KE_FMT_SIZET"]}
{"id": "C127", "title": "Functions captured by callables are part of the captured value", "statement": "A Function whose callable owns Functions, because a closure captures them or because a non-const lvalue Function was wrapped, is a value that contains theirs: a copy contains copies, reassigning, moving or clearing a Function, at any depth of captures, changes what it and the Functions around it call and nothing else, every assignment gives the target the value the source had, and every holder is freed exactly once by the time the Functions have gone out of scope.", "quantifier": "every program that sets, copies, moves, wraps, clears and calls Functions, variables or captures of captures to any depth", "why_tests_cant": "Nesting depth, number of captures and order of statements are unbounded; the tests capture no Functions", "anchors": ["amtl/am-function.h:Function::operator =", "amtl/am-function.h:Function::destroy", "amtl/am-function.h:Function::assign", "amtl/am-function.h:Function::move", "amtl/am-function.h:FunctionHolder::clone"]}
{"id": "C128", "title": "The reference count cannot wrap while its references are held in memory", "statement": "The reference count is an unsigned integer as wide as a pointer and wraps silently. It is exact all the same: as long as there are fewer pointers in memory than the count has values, a program runs exactly as it would with an unbounded count, no object is destroyed while a handle refers to it and none is leaked. Only references that are recorded nowhere can exhaust it, and then the object is destroyed under them.", "quantifier": "every width of the count, every program over RefPtr, AlreadyRefed and owned raw pointers, every object graph, destructors that only destroy their members and destructors that use RefPtrs themselves, debug and release builds; every number of unrecorded AddRef calls", "why_tests_cant": "No test can make 2^32 or 2^64 references", "anchors": ["amtl/am-refcounting.h:Refcounted::AddRef", "amtl/am-refcounting.h:Refcounted::Release", "amtl/am-refcounting.h:VirtualRefcounted::AddRef", "amtl/am-refcounting.h:RefPtr"]}
{"id": "C129", "title": "PriorityQueue operations make logarithmically many comparisons, with any comparator", "statement": "The comparator may be any callable, even one whose answers depend on earlier calls or contradict each other: no sequence of operations faults, loops, loses or duplicates an item. An add to a queue of n items calls it at most log2(n+1) times, a pop at most 2*log2(n-1) times, the other members never; it is only ever called on items in the queue; sorting n items takes at most 3*n*log2(n) calls; and these bounds are attained.", "quantifier": "every item type, every comparator with any state, every sequence of operations on a queue, every queue size", "why_tests_cant": "Worst cases over all inputs and all comparators; tests observe single runs with an order", "anchors": ["amtl/am-priority-queue.h:PriorityQueue::propagateUp", "amtl/am-priority-queue.h:PriorityQueue::propagateDown", "amtl/am-priority-queue.h:PriorityQueue::add", "amtl/am-priority-queue.h:PriorityQueue::pop"]}
{"id": "C130", "title": "Maybe survives exceptions thrown by T's constructors", "statement": "When a constructor of T throws inside any Maybe operation and the client catches the exception, the Maybe has a definite meaning: a constructor that threw leaves no variable, an assignment or init that threw leaves it empty, the source of a copy is untouched. No T is destroyed twice, read when it does not exist, or leaked because of the exception.", "quantifier": "every T, every pattern of throwing constructions, every sequence of operations on any number of Maybes, each statement in its own try/catch", "why_tests_cant": "A test injects one exception at one point; the claim is about every point of every program", "anchors": ["amtl/am-maybe.h:Maybe::init", "amtl/am-maybe.h:Maybe::copyFrom", "amtl/am-maybe.h:Maybe::moveFrom", "amtl/am-maybe.h:Some"]}
{"id": "C131", "title": "FixedArray survives exceptions thrown by T's constructors", "statement": "When a constructor of T throws inside a FixedArray constructor or copy assignment and the client catches the exception, the elements already built are destroyed, storage is freed, other arrays are untouched, and an array that was being assigned to can still be ended.", "quantifier": "every T, every element count, every pattern of throwing constructions, every sequence of operations on any number of arrays, each statement in its own try/catch", "why_tests_cant": "A test injects one exception at one point; the claim is about every point of every program", "anchors": ["amtl/am-fixedarray.h:FixedArray::FixedArray", "amtl/am-fixedarray.h:FixedArray::operator=", "amtl/am-fixedarray.h:FixedArray::destruct"]}
{"id": "C132", "title": "Function survives exceptions thrown by callables' constructors", "statement": "When copying or moving a callable throws inside any Function operation and the client catches the exception, the Function being built does not exist, the one being assigned to is empty or at least can be ended, the source still holds its callable; no callable is destroyed twice, called after its end, or leaked.", "quantifier": "every callable type, inline or on the heap, every pattern of throwing constructions, every sequence of operations on any number of Functions, each statement in its own try/catch", "why_tests_cant": "A test injects one exception at one point; the claim is about every point of every program", "anchors": ["amtl/am-function.h:Function::operator=", "amtl/am-function.h:Function::assign", "amtl/am-function.h:Function::move", "amtl/am-function.h:FunctionHolder::clone"]}
{"id": "C133", "title": "HashTable survives exceptions thrown by payloads", "statement": "When constructing a payload throws inside HashMap::add, HashTable::add, or a resize and the client catches the exception, the table still holds exactly the payloads it held, can be used, and can be ended without destroying anything twice or losing memory.", "quantifier": "every hash policy, every reachable table of any capacity, every insertion that would succeed, every resize and every payload in it whose move throws, every sequence of calls mixed with throwing insertions", "why_tests_cant": "A test throws at one point of one table; the claim is about every table and every point", "anchors": ["amtl/am-hashtable.h:HashTable::add", "amtl/am-hashtable.h:HashTable::changeCapacity", "amtl/am-hashmap.h:HashMap::add"]}
{"id": "C134", "title": "PriorityQueue survives a comparator that throws", "statement": "When the comparator throws inside add or pop and the client catches the exception, the queue holds the items it held before or after the call, none of them moved from, and can be used.", "quantifier": "every item type, every comparator with a state that answers or throws as it likes, every history of calls that respects empty()", "why_tests_cant": "A test throws at one comparison of one history; the claim is about every comparison of every history", "anchors": ["amtl/am-priority-queue.h:PriorityQueue::add", "amtl/am-priority-queue.h:PriorityQueue::pop", "amtl/am-priority-queue.h:PriorityQueue::propagateUp", "amtl/am-priority-queue.h:PriorityQueue::propagateDown"]}
{"id": "C135", "title": "A thread-safe count as wide as a pointer does not wrap", "statement": "With refcount_ an unsigned integer of w bits that wraps, a program in which fewer than 2^w references to one object exist at a time (as it must if memory holds fewer than 2^w pointers) behaves as if the count were unbounded: nothing faults and objects are deleted exactly when their last reference goes.", "quantifier": "every width, any number of threads, AtomicRefs, objects and steps, any interleaving", "why_tests_cant": "A test cannot create 2^32 references; the claim is about the arithmetic of every schedule", "anchors": ["amtl/am-refcounting-threadsafe.h:RefcountedThreadsafe::AddRef", "amtl/am-refcounting-threadsafe.h:RefcountedThreadsafe::Release", "amtl/am-refcounting-threadsafe.h:AtomicRef"]}
{"id": "C136", "title": "A HashTable is unharmed by a HashPolicy that throws or changes its mind", "statement": "Whatever hash and matches answer each time they are called, even within one lookup, and whichever of those calls throws, every history of calls terminates without a fault, neither leaks nor destroys a payload twice, and the table behaves as a bag of payloads that a call that throws leaves exactly as it was.", "quantifier": "every payload type, every behaviour of hash and matches at every call, every history of calls, every capacity and allocation outcome", "why_tests_cant": "A test throws at one comparison of one history; the claim is about every comparison, every answer and every history", "anchors": ["amtl/am-hashtable.h:HashTable::find", "amtl/am-hashtable.h:HashTable::findForAdd", "amtl/am-hashtable.h:HashTable::add", "amtl/am-hashtable.h:HashTable::removeIfExists"]}
{"id": "C137", "title": "Scopes of am-raii.h under exceptions", "statement": "When copies and assignments of T, and callbacks, throw: a SaveAndSet scope left by an exception restores its location, a ScopeGuard runs its callback exactly once unless cancelled, ReturnAndVoid either returns the old value or changes nothing, and the exception can be handled outside the scope.", "quantifier": "all programs of nested scopes, guards, cancellations and handlers; every set of copies that throw; every effect of a failed assignment", "why_tests_cant": "Which copy throws, at which depth of which unwinding, is unbounded; the tests use types that do not throw", "anchors": ["amtl/am-raii.h: SaveAndSet", "amtl/am-raii.h: ScopeGuard", "amtl/am-raii.h: MakeScopeGuard", "amtl/am-raii.h: ReturnAndVoid"]}
{"id": "C138", "title": "PriorityQueue survives items whose moves throw", "statement": "When a move of an item throws inside add() or pop(), the exception reaches the caller, the queue still holds exactly the items it should, none of them moved from, and offers them in priority order.", "quantifier": "all queues without moved-from items, all comparators, every set of moves that throw, return values elided or not", "why_tests_cant": "Which of the moves of which call throws is unbounded; the tests use items whose moves do not throw", "anchors": ["amtl/am-priority-queue.h: PriorityQueue::add", "amtl/am-priority-queue.h: PriorityQueue::pop", "amtl/am-priority-queue.h: PriorityQueue::propagateUp", "amtl/am-priority-queue.h: PriorityQueue::propagateDown"]}
