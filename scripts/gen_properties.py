#!/usr/bin/env python3
"""Writes /verif/properties.jsonl.  One tuple per property:
(title, statement, quantifier, why_tests_cant, anchors)"""
import json, os
H = "amtl/am-hashtable.h"
P = []
def p(id, title, statement, quantifier, why, anchors):
    P.append(dict(id=id, title=title, statement=statement, quantifier=quantifier,
                  why_tests_cant=why, anchors=anchors))

# ---------------------------------------------------------------- hash tables
p("C01", "Hash table refines an abstract collection",
  "After any sequence of findForAdd+add, removeIfExists, find+remove, clear and checkDensity on an initialised HashTable, find(k) is found() exactly when the abstract collection holds a payload matching k, and then yields that payload; findForAdd(k) agrees with find(k); elements are never lost, duplicated or resurrected by tombstones, growth or shrinking.",
  "all payload/key types, all hash functions (including constant ones), all matches() functions consistent with the hash, all initial power-of-two capacities, all finite operation histories, all malloc-failure schedules",
  "Collisions, tombstone reuse, wrap-around of the probe and resizes interact; a test samples a few hash functions and histories.",
  [H+": HashTable::lookup, lookupForAdd, insertUnique, internalAdd, removeEntry, changeCapacity, clear, checkDensity"])
p("C02", "Every lookup terminates",
  "find, findForAdd and the re-insertion performed by a resize always terminate on every reachable initialised table: the probe meets a stopping slot within capacity steps.",
  "all reachable table states, all keys, all hash functions",
  "Non-termination needs a table with no free slot; only an invariant over all histories excludes it.",
  [H+": HashTable::lookup, lookupForAdd, insertUnique, overloaded, checkDensity, Probulator"])
p("C03", "elements() and iteration are exact",
  "In every reachable state elements() equals the number of stored payloads, and iter()/empty()/next() visits every stored payload exactly once and nothing else.",
  "all reachable table states", "Counts and positions depend on the whole history.",
  [H+": HashTable::elements, iterator"])
p("C04", "Erasing while iterating",
  "A loop that calls iterator::erase() on the payloads satisfying any predicate and next() on every step visits each payload exactly once and leaves exactly the payloads not satisfying the predicate.",
  "all reachable table states, all predicates", "The predicate and layout space is unbounded.",
  [H+": HashTable::iterator::erase, iterator::next, removeEntry"])
p("C05", "A failed add changes nothing",
  "When add() returns false (allocation failure or capacity overflow with a fallible AllocPolicy) the collection, elements() and all later lookups are exactly as before and the table stays usable; add() fails only if an allocation was refused or the capacity limit was reached.",
  "all reachable states, all keys/payloads, all allocation-failure schedules",
  "The failure can be injected at any point of any history.",
  [H+": HashTable::internalAdd, grow, shrink, changeCapacity, createTable"])
p("C06", "Payload and block lifetimes",
  "Every payload placed in the table is destroyed exactly once (by remove, clear, resize-move or the destructor), payload storage is never read unless constructed, never constructed over a live payload, and no table memory is freed while holding a live payload. Between init() and the destructor the table owns exactly one heap block of estimateMemoryUse() bytes, and by the end of its life every block it took has been freed exactly once.",
  "all histories ending in destruction of the table", "Double destruction/leaks depend on the history of resizes and removals.",
  [H+": HashTableEntry::construct, destruct, setRemoved, setFree; HashTable::changeCapacity, ~HashTable, clear"])
p("C07", "A table whose init() failed can be destroyed",
  "If init() returns false because the allocator returned null, destroying the HashTable is well defined.",
  "all capacities, all allocation outcomes", "Needs fault injection at exactly one point.",
  [H+": HashTable::init, ~HashTable"])
p("C08", "Capacity overflow is reported, not asserted",
  "When growth would exceed the documented maximum capacity, add() reports allocation overflow through the AllocPolicy and returns false; it never trips an internal assertion.",
  "all entry sizes, all reachable states", "The boundary lies at ~2^31 bytes, out of reach of unit tests.",
  [H+": HashTable::grow, changeCapacity, kMaxCapacity"])
p("C09", "Move construction transfers the table",
  "Move-constructing a HashTable/HashMap/HashSet gives the new object exactly the old contents and leaves the source empty (elements()==0, iteration empty) and safely destructible.",
  "all reachable states", "Must hold after every history.",
  [H+": HashTable::HashTable(HashTable&&)"])
p("C10", "Capacity discipline",
  "In every reachable state the capacity is a power of two, never below the requested initial capacity (at least 16), at least one slot is free, and estimateMemoryUse() is capacity times the entry size.",
  "all reachable states, all initial capacities accepted by init()", "Invariant over histories with growth, shrinking and failed allocations.",
  [H+": HashTable::init, underloaded, overloaded, shrink, grow, estimateMemoryUse"])
p("C11", "The Insert object stays valid after add()",
  "After a successful add(i, payload), dereferencing i yields the payload just added, even if add() resized the table; writing a new value through it is what later finds of that key observe.",
  "all reachable states, keys, payloads", "Only the resizing adds exercise the re-lookup, and at different positions.",
  [H+": HashTable::add, internalAdd", "amtl/am-hashmap.h: HashMap::add"])
p("C12", "HashMap is a finite map",
  "For every history of HashMap operations (add if absent, overwrite through the Insert/Result, removeIfExists, clear), find(k) returns exactly the last value stored for k since its last removal, and elements() is the number of distinct keys present.",
  "all key/value types with decidable equality, all hash functions, all histories, all malloc-failure schedules",
  "Unbounded histories and arbitrary hash collisions.",
  ["amtl/am-hashmap.h: HashMap"])
p("C13", "HashSet is a finite set",
  "For every history of HashSet::add(k), removeIfExists and clear, has(k) is true exactly when k was added since its last removal, adding twice is idempotent, and elements() is the cardinality.",
  "all key types, hash functions, histories", "Unbounded histories and arbitrary hash collisions.",
  ["amtl/am-hashset.h: HashSet::add, has, removeIfExists, clear, elements"])
# ---------------------------------------------------------------- hash functions
p("C14", "Stream hashing is chunk-independent",
  "Feeding CharacterStreamHasher any sequence of chunks gives the same result as hashing the concatenation with HashCharSequence; the result is always a 32-bit value.",
  "all byte strings and all ways of cutting them", "All cut points of all strings.",
  [H+": CharacterStreamHasher::add, result, HashCharSequence"])
p("C15", "FastHashCharSequence is the base-65599 polynomial hash",
  "FastHashCharSequence(s, n) equals sum(s[i] * 65599^(n-1-i)) modulo 2^32 with s[i] sign-extended chars.",
  "all byte strings of any length", "All strings, wrap-around included.",
  [H+": FastHashCharSequence"])
p("C16", "Integer hashing has no undefined behaviour",
  "HashInt32 and HashInt64 are defined for every input value.",
  "all 2^32 / 2^64 inputs", "UB is silent; tests that pass prove nothing.",
  [H+": HashInt32, HashInt64"])
p("C17", "HashInt32 separates distinct integers",
  "The Wang/Jenkins integer mix cited by the source is a bijection on 32-bit integers, so distinct keys get distinct hashes.",
  "all pairs of 32-bit inputs", "Pairs space is 2^64.",
  [H+": HashInt32"])
# ---------------------------------------------------------------- bits
B = "amtl/am-bits.h"
p("C18", "FindLeftmostBit32/64 and FindRightmostBit are exact",
  "For every non-zero input, FindLeftmostBit32/64 return the index of the highest set bit and FindRightmostBit the index of the lowest set bit, on every supported compiler/data model.",
  "all non-zero inputs; GCC LP64, GCC ILP32, MSVC x64/x86 variants", "2^64 inputs and several platforms.",
  [B+": FindLeftmostBit32, FindLeftmostBit64, FindRightmostBit"])
p("C19", "Log2 is the floor of the base-2 logarithm",
  "For every non-zero size_t n, Log2(n) is the index of its highest set bit.",
  "all non-zero size_t values, each compiler variant", "2^64 inputs.", [B+": Log2"])
p("C20", "IsPowerOfTwo is exact",
  "IsPowerOfTwo(n) is true iff n = 2^k for some k.", "all size_t values", "2^64 inputs.", [B+": IsPowerOfTwo"])
p("C21", "Align rounds up to the next multiple",
  "For a power-of-two alignment, Align(count, alignment) is the least multiple of alignment that is >= count whenever that multiple is representable; otherwise it wraps to 0.",
  "all counts, all power-of-two alignments", "2^64 x 64 inputs including the wrap boundary.", [B+": Align"])
p("C22", "IsAligned / AlignedBase agree with arithmetic",
  "IsAligned(a, n) iff n divides a; AlignedBase(a, n) is the greatest multiple of n that is <= a.",
  "all addresses, all power-of-two alignments", "2^64 inputs.", [B+": IsAligned, AlignedBase"])
p("C23", "Pointer tag bits round-trip",
  "For a pointer aligned to 2^N and tag bits < 2^N, GetPointerBits<N>(SetPointerBits(p,t)) = t and ClearPointerBits<N>(SetPointerBits(p,t)) = p, for every usable N.",
  "all aligned pointers, all tags, all N", "All pointer values; and large N misbehave.", [B+": SetPointerBits, GetPointerBits, ClearPointerBits"])
p("C24", "Multiply-overflow guard is sound",
  "IsUint32MultiplySafe/IsUint64MultiplySafe/IsUintPtrMultiplySafe(a,b) return true only if a*b fits the type (and false only if it does not).",
  "all pairs of inputs", "2^64..2^128 pairs; the unit test checks two.", [B+": IsUintMultiplySafe"])
p("C25", "Add-overflow guard is sound",
  "IsUint32AddSafe/IsUint64AddSafe/IsUintPtrAddSafe(a,b) return true only if a+b fits the type.",
  "all pairs of inputs", "Not tested at all; 2^64 pairs.", [B+": IsUintAddSafe"])
p("C26", "TryUint32Add / TryUint64Add are exact",
  "They return true iff the mathematical sum fits, then store exactly that sum; otherwise they return false and leave *out untouched.",
  "all pairs of inputs and prior *out values", "2^64/2^128 pairs.", ["amtl/am-arithmetic.h: TryUint32Add, TryUint64Add"])
p("C27", "TryUint64Multiply is exact",
  "It returns true iff the mathematical product fits in 64 bits, then stores exactly that product; otherwise returns false and leaves *out untouched.",
  "all pairs of inputs", "2^128 pairs.", ["amtl/am-arithmetic.h: TryUint64Multiply"])
# ---------------------------------------------------------------- priority queue
Q = "amtl/am-priority-queue.h"
p("C28", "PriorityQueue pops in priority order",
  "In every reachable queue, peek() and pop() return an element than which no other stored element has higher priority; pop() removes exactly that one element and add()/emplace() adds exactly one.",
  "all element types, all strict weak orders, all histories of add/pop", "Heap shapes and orders are unbounded.",
  [Q+": PriorityQueue::add, emplace, peek, pop, propagateUp, propagateDown"])
p("C29", "Draining a PriorityQueue sorts",
  "Adding any list of items and popping until empty() yields a permutation of the items in which no later item has higher priority than an earlier one.",
  "all lists, all strict weak orders", "All lists.", [Q+": PriorityQueue"])
p("C30", "PriorityQueue never uses moved-from or out-of-range elements",
  "No operation compares, moves or returns an element slot that has been moved from, and no index is out of range, for any comparator (even one that is not an order); pop/peek on empty is the only precondition.",
  "all histories, all comparators", "Moved-from reads are silent for most T.", [Q+": propagateUp, propagateDown, pop"])
# ---------------------------------------------------------------- inline list
L = "amtl/am-inlinelist.h"
p("C31", "InlineList keeps insertion order",
  "For any history of append/remove/erase over any number of lists, forward iteration of each list yields its nodes in append order, reverse iteration the reverse, empty() and begin()==end() agree, and other lists are unaffected.",
  "all legal histories over any number of lists and nodes, debug and release builds", "Pointer surgery over arbitrary histories.",
  [L+": InlineList::append, remove, erase, iterator, reverse_iterator, empty"])
p("C32", "InlineList::length() is exact",
  "length() always equals the number of nodes iteration yields, whichever removal API (remove, erase, removeFromParentList) was used.",
  "all legal histories", "Every mix of removal APIs.", [L+": length, remove, InlineListNode::removeFromParentList"])
p("C33", "isInList() is exact",
  "A node's isInList() is true iff it is currently linked in some list.",
  "all legal histories, debug and release builds", "Depends on build mode and history.", [L+": InlineListNode::isInList, InlineList::remove"])
p("C34", "Erase-while-iterating and destructor unlinking",
  "Iterating and erasing the nodes that satisfy a predicate visits every node once and leaves exactly the others; in debug builds destroying a list unlinks all its nodes so they can be appended elsewhere.",
  "all lists, all predicates", "All lists and predicates.", [L+": erase, ~InlineList"])
# ---------------------------------------------------------------- refcounting
R = "amtl/am-refcounting.h"
p("C35", "RefPtr keeps objects alive exactly as long as referenced",
  "For any history of RefPtr/AlreadyRefed construction, copy, move, adopt, forget, assignment (from a different RefPtr, a raw pointer owned elsewhere, an AlreadyRefed) and destruction, including objects that own further RefPtrs: an object is destroyed exactly when its last reference goes away, never earlier, never twice; the reference count always equals the number of handles.",
  "all object graphs, all legal histories", "Object graphs and histories are unbounded.",
  [R+": RefPtr, AlreadyRefed, Refcounted::AddRef, Refcounted::Release"])
p("C36", "Self-assignment of RefPtr is harmless",
  "p = p (or p = p.get()) leaves p holding the same live object.",
  "all reference counts", "UB may go unnoticed.", [R+": RefPtr::operator=(const RefPtr&), operator=(S*)"])
p("C37", "Assigning from a member of the held object is safe",
  "head = head->next (assignment from a RefPtr stored in the object being released) leaves head holding next.",
  "all object chains", "Use-after-free is silent.", [R+": RefPtr::operator=(const RefPtr&)"])
p("C38", "Ownership transfer does not change counts",
  "take(), forget(), AdoptRef and move construction/assignment transfer a reference without changing the object's reference count and leave the source null.",
  "all states", "All states.", [R+": RefPtr::take, forget, AlreadyRefed::take, AdoptRef, RefPtr(RefPtr&&)"])
T = "amtl/am-refcounting-threadsafe.h"
p("C39", "RefcountedThreadsafe deletes once under any interleaving",
  "With any number of threads adding and releasing references they own, the object is deleted exactly once, by the release of the last reference, its deletion assertion never fails, and no thread touches it afterwards.",
  "all numbers of threads, all interleavings of atomic steps", "Schedules cannot be enumerated by tests.",
  [T+": RefcountedThreadsafe::AddRef, Release"])
p("C40", "VirtualRefcountedThreadsafe deletes on last release",
  "When the last owned reference to a VirtualRefcountedThreadsafe object is released, the object is deleted.",
  "all reference counts and schedules", "A leak is not observed by a passing test.", [T+": VirtualRefcountedThreadsafe::Release"])
p("C41", "AtomicRef never yields a dead object",
  "With any number of threads concurrently calling get() and assigning an AtomicRef, every non-null pointer returned by get() is alive and carries its own reference; no reference count is ever touched after the object is destroyed; internal assertions never fail.",
  "all numbers of threads, all interleavings (sequentially consistent), all aligned object addresses", "Races.",
  [T+": AtomicRef::get, operator=, lock, unlock"])
p("C42", "AtomicRef is linearizable as an atomic register",
  "The critical section is mutually exclusive, each get() returns the value most recently stored at its linearization point, and when no operation is in progress every object's count equals handles held plus one if stored in the AtomicRef.",
  "all interleavings", "Races.", [T+": AtomicRef::lock, unlock"])
# ---------------------------------------------------------------- strings
S = "amtl/am-string.h"
p("C43", "SafeStrcpy truncates, terminates and stays in bounds",
  "For a buffer of at least maxlength>0 bytes, SafeStrcpy writes exactly the first min(strlen(src), maxlength-1) bytes of src followed by one NUL, touches nothing else, and returns that length; null dest or zero maxlength writes nothing and returns 0.",
  "all sources, all buffer contents, all maxlength", "All sizes; OOB is silent.", [S+": SafeStrcpy"])
p("C44", "SafeStrcat truncates, terminates and stays in bounds",
  "For a NUL-terminated dest, SafeStrcat appends as many bytes of src as fit in maxlength-1 total, terminates, never writes outside maxlength or the existing string, and returns the new length; if dest already fills maxlength it is unchanged.",
  "all dest/src strings, all maxlength", "All sizes.", [S+": SafeStrcat"])
p("C45", "SafeStrcpyN copies at most n characters of the string",
  "Same as SafeStrcpy but copying at most n characters: result is the first min(n, strlen(src), maxlength-1) characters, NUL-terminated, reading nothing past src's terminator.",
  "all sources, n, maxlength", "Reads past the terminator are silent.", [S+": SafeStrcpyN"])
p("C46", "SafeSprintf is bounded and terminated",
  "SafeVsprintf/SafeSprintf always leave a NUL inside maxlength bytes, write nothing beyond, return a value < maxlength, and when formatting succeeds the buffer holds the first min(len, maxlength-1) characters of the formatted text and that count is returned, with both C99 vsnprintf and MSVC _vsnprintf.",
  "all formatted texts, all maxlength, both libc behaviours", "All lengths around the boundary.", [S+": SafeVsprintf, SafeSprintf"])
p("C47", "StringPrintf returns exactly the formatted text",
  "StringPrintf/Sprintf return exactly the formatted text for every length (two-pass), allocate length+1 bytes and never overrun; a formatting error yields an empty string / null.",
  "all formatted texts", "All lengths.", [S+": SprintfArgsImpl, StringPrintfVa, Sprintf"])
p("C48", "Join inverts Split",
  "Join(Split(str, sep), sep) == str for every C string str and non-empty sep.",
  "all strings, all non-empty separators", "All strings.", [S+": Split, Join"])
p("C49", "Split(const std::string&) round-trips too",
  "Join(Split(str, sep), sep) == str for every std::string.",
  "all std::string values, embedded NULs included", "Embedded NUL is never tested.", [S+": Split(const std::string&, const char*)"])
p("C50", "Split is the leftmost greedy split",
  "Split cuts at every leftmost non-overlapping occurrence of sep: no piece contains sep, the pieces are uniquely determined, the empty string gives no pieces; and Split(Join(ps, c), c) == ps for single-character c not occurring in ps unless ps is the single empty piece.",
  "all strings and separators", "All strings.", [S+": Split"])
p("C51", "Join concatenates with separators in bounds",
  "Join(ps, sep) is the pieces separated by sep, computed with an exactly sized buffer that is never overrun and completely filled.",
  "all lists of strings, all separators (empty allowed)", "All lists.", [S+": Join"])
p("C52", "StartsWith / EndsWith are exact",
  "StartsWith(a,b) iff b is a prefix of a; EndsWith(a,b) iff b is a suffix of a.",
  "all strings", "All strings.", [S+": StartsWith, EndsWith"])
p("C53", "Uppercase / Lowercase are total and idempotent",
  "Uppercase and Lowercase keep the length, map ASCII letters, leave other bytes unchanged, are idempotent, and are defined for every byte string.",
  "all byte strings", "Bytes >= 0x80 are UB with signed char and never tested.", [S+": Uppercase, Lowercase"])
p("C54", "path::Format normalises separators",
  "path::Format produces the SafeSprintf result with every foreign separator replaced by the native one and nothing else changed.",
  "all formatted texts, all maxlength, both platforms", "All texts.", ["amtl/os/am-path.h: FormatVa, Format"])
# ---------------------------------------------------------------- Maybe / FixedArray / Function
p("C55", "Maybe has value semantics",
  "Copying/moving/assigning/initialising Maybe between distinct objects makes the destination equal the source's prior value; a moved-from Maybe is empty; the source of a copy is unchanged.",
  "all histories between distinct Maybe objects", "All histories.", ["amtl/am-maybe.h: Maybe, Some"])
p("C56", "Maybe destroys what it constructs",
  "Every T constructed inside a Maybe is destroyed exactly once by the time the Maybe is destroyed.",
  "all histories", "Leaks are silent.", ["amtl/am-maybe.h: Maybe::operator=, moveFrom"])
p("C57", "Maybe self-assignment keeps the value",
  "m = m leaves m unchanged.", "all values", "Never tested.", ["amtl/am-maybe.h: Maybe::operator=(const Maybe&)"])
p("C58", "FixedArray holds what it was given",
  "A FixedArray constructed with size n has n value-initialised elements; copies (from arrays or vectors) are element-wise equal and independent; at(i) reads the last value written at i; == is element-wise equality.",
  "all sizes, all element values, all write histories", "All sizes and histories.", ["amtl/am-fixedarray.h: FixedArray"])
p("C59", "FixedArray never leaks or double frees",
  "Every block allocated and element constructed by FixedArray operations is released exactly once.",
  "all histories of construction, copy/move assignment and destruction", "Leaks are silent.", ["amtl/am-fixedarray.h: operator=, ~FixedArray"])
p("C60", "FixedArray tolerates allocation failure and size overflow",
  "If allocation fails (fallible policy) or sizeof(T)*size overflows, construction and destruction remain memory safe.",
  "all sizes, all allocation outcomes", "Needs fault injection / huge sizes.", ["amtl/am-fixedarray.h: allocate, destruct, initialize"])
F = "amtl/am-function.h"
p("C61", "Function calls what was stored",
  "After construction/assignment from a callable, copy or move, invoking the Function runs that callable; a moved-from Function is empty; copies are independent.",
  "all histories between distinct Function objects, all callable sizes", "All histories and sizes.", [F+": Function"])
p("C62", "Function lifetimes and inline storage",
  "Every callable copy created by Function is destroyed exactly once; storage is inline exactly when the holder fits the 3-word buffer.",
  "all histories between distinct Function objects", "Leaks/double destroys are silent.", [F+": assign, move, destroy, zap, usingInlineStorage"])
p("C63", "Copying an empty Function gives an empty Function",
  "Copy construction/assignment from any empty Function gives an empty Function.",
  "const and non-const sources", "Overload resolution differs by constness.", [F+": Function(T&&), operator=(T&&), assign"])
p("C64", "Function self-assignment is harmless",
  "f = f and f = std::move(f) are well defined.", "all stored callables", "UB is silent.", [F+": operator=(const Function&), operator=(Function&&)"])
p("C65", "Callables of up to three words are stored inline (README)",
  "Callable objects within the 3-word buffer size never use new.", "all callable sizes", "Size boundary.", [F+": assign, kMinFunctionInlineBufferSize", "README.md"])
# ---------------------------------------------------------------- flags, raii
p("C66", "Flags are bit sets",
  "For Flags<T>, + and | are union, - is set difference, & intersection, ^ symmetric difference, ! emptiness, == extensional equality, and compound assignments agree; KE_DEFINE_ENUM_OPERATORS likewise with ~ as complement in the underlying width.",
  "all flag values of any width", "2^64 pairs.", ["amtl/am-flags.h: Flags", "amtl/am-enum.h: KE_DEFINE_ENUM_OPERATORS"])
p("C67", "SaveAndSet restores",
  "Inside a SaveAndSet scope the location initially holds the new value, and on exit it holds the value from before the scope whatever the body did, for arbitrarily nested scopes.",
  "all nested programs", "Nesting is unbounded.", ["amtl/am-raii.h: SaveAndSet"])
p("C68", "ScopeGuard runs its callback exactly once unless cancelled",
  "Over any history of moving and cancelling, when all guard objects are destroyed the callback has run exactly once, or not at all if the guard holding it was cancelled.",
  "all move/cancel/destroy histories", "All histories.", ["amtl/am-raii.h: ScopeGuard, MakeScopeGuard"])
p("C69", "StackLinked maintains the list head",
  "With properly nested lifetimes, the head pointer always refers to the innermost live object, following prev links enumerates live objects innermost first, and the destructor assertion never fails.",
  "all nested scopes", "Nesting is unbounded.", ["amtl/am-raii.h: StackLinked"])
# ---------------------------------------------------------------- threads
p("C70", "ThreadLocal isolates threads",
  "Once storage is allocated, get() on a thread returns the value this thread last set, or the zero value if it never set one, regardless of other threads.",
  "all threads, all interleavings of set/get", "Schedules.", ["amtl/am-threadlocal.h: ThreadLocal::get, set"])
p("C71", "Concurrent first use of ThreadLocal is safe",
  "Two threads may race on the first set()/allocate(); neither uses an uncreated key; an allocation failure is reported to every caller.",
  "all interleavings, all pthread_key_create outcomes", "Race window.", ["amtl/am-threadlocal.h: allocate, set"])
p("C72", "Mutex ownership assertion is exact",
  "In debug builds AssertCurrentThreadOwns() passes exactly when the calling thread holds the lock, however it was acquired.",
  "all threads and histories of lock/try_lock/unlock", "Schedules.", ["amtl/am-mutex.h: Mutex"])
# ---------------------------------------------------------------- argparser
A = "amtl/experimental/am-argparser.h"
p("C73", "Argument parsing assigns exactly the given values",
  "For options with distinct names, any command line rendered from a list of option settings (as --long=v, --long v, -s v, -s=v, toggles, enables with --no-) and positionals parses successfully, every mentioned option holds the rendered value (repeat options hold all values in order), and every other option keeps its default.",
  "all option sets, all values, all orders and spellings", "Combinatorial.", [A+": Parser::parse_impl, Option, EnableOption, ToggleOption, RepeatOption"])
p("C74", "Parsing is free of undefined behaviour",
  "parse() dereferences no null pointer and hands no null string to a value policy, for every argument vector.",
  "all argument vectors, all option sets and parser modes", "Crash inputs.", [A+": Parser::parse_impl"])
p("C75", "Malformed command lines are rejected",
  "An unknown option, a repeated non-repeat option, a missing required value, a value on a value-less option, an unparsable value, an extra argument (when not collected) or a missing positional makes parse() return false.",
  "all argument vectors", "Combinatorial.", [A+": Parser::parse_impl"])
p("C76", "Extra and positional arguments keep their order",
  "Non-option arguments fill the positionals in order, and, when collection is enabled, the remaining ones appear in extra_args() in order.",
  "all argument vectors", "Combinatorial.", [A+": Parser::parse_impl, extra_args"])
p("C77", "Everything after -- is passed through",
  "With passthrough enabled, all arguments after the first -- appear in passthrough_args() unchanged and in order.",
  "all argument vectors", "A second -- is not tested.", [A+": allow_passthrough_args, passthrough_args"])
p("C78", "A stop option halts parsing",
  "When a StopOption is met, no later argument has any effect and missing positionals are not an error; parse() is true unless it was the help option.",
  "all argument vectors", "All suffixes.", [A+": StopOption, haltOnValue"])
p("C79", "reset() restores the initial state",
  "After reset(), parsing behaves as on a fresh parser with the same options.",
  "all previous command lines", "All histories.", [A+": Parser::reset"])
p("C80", "Boolean options given on the command line take effect",
  "An Option<bool> mentioned on the command line ends up with a value: true if no boolean literal follows, and an invalid inline value is rejected.",
  "all argument vectors", "The following argument decides.", [A+": ValuePolicy<bool>, Parser::parse_impl"])
p("C81", "Integer options are exact",
  "IntOption accepts exactly the decimal integers in the range of int and stores their value; anything else is rejected.",
  "all strings", "All strings, range boundary.", [A+": ValuePolicy<int>::consumeValue"])
p("C82", "Usage text wraps without losing words",
  "The help column printed by usage() contains exactly the words of the help text in order, and each line fits the column unless it is a single over-long word.",
  "all help texts", "All texts.", [A+": Parser::usage"])
# ---------------------------------------------------------------- float, time, vector, os, tools
p("C83", "IsInfinite is true exactly for infinities",
  "IsInfinite<float>(v) and IsInfinite<double>(v) are true iff v is +/-infinity.",
  "all 2^32 / 2^64 bit patterns", "All bit patterns.", ["amtl/am-float.h: IsInfinite"])
p("C84", "FloatModulo follows its documented special cases",
  "x or y NaN, x infinite, or y zero give NaN; y infinite gives x; x zero gives x - on the Windows path as well.",
  "all classes of operands", "All operand classes.", ["amtl/am-float.h: FloatModulo"])
p("C85", "Timespec conversion is exact",
  "TimespecToDuration(ts) is tv_sec*10^9+tv_nsec nanoseconds whenever representable; conversion to a clock's time_point truncates to the clock resolution.",
  "all timespecs", "Overflow boundary.", ["amtl/am-time.h: TimespecToDuration, TimespecToTimePoint, EpochValueToTimePoint"])
p("C86", "Vector and deque helpers are exact",
  "MoveExtend appends all of src to dest in order and empties src; PopBack/PopFront return and remove the end element; RemoveAt/InsertAt/EmplaceAt/EraseIf do exactly what their names say and preserve the order of the rest.",
  "all vectors, positions, predicates", "All sizes.", ["amtl/am-vector.h", "amtl/am-deque.h"])
p("C87", "MoveExtend with dest == src terminates",
  "MoveExtend(&v, &v) terminates and stays well defined.", "all vectors", "A hang.", ["amtl/am-vector.h: MoveExtend"])
p("C88", "SharedLib closes every library exactly once",
  "For every Open history, each successfully opened handle is closed exactly once when its last reference goes away, failed opens close nothing, and the error buffer is always terminated.",
  "all open/reference histories, all dlopen outcomes", "Fault injection and histories.", ["amtl/os/am-shared-library.h: SharedLib"])
p("C89", "TextRewriter applies edits faithfully",
  "For non-overlapping edits at distinct offsets inside the text, emit() returns the original text with exactly those edits applied.",
  "all texts, all sets of edits in any registration order", "All texts and edits.", ["tools/restyler/amstyler.cpp: TextRewriter::emit"])
p("C90", "TextRewriter accepts several edits at one position or at end of text",
  "emit() also handles two edits at the same offset and an insertion at the very end of the text.",
  "all texts", "Assertion failures on rare inputs.", ["tools/restyler/amstyler.cpp: TextRewriter::emit"])

# ---------------------------------------------------------------- added as the model grew
p("C91", "FormatSystemError always terminates its buffer",
  "After FormatSystemErrorCode(code, error, maxlength) with maxlength > 0, error holds a terminated message within maxlength bytes and nothing beyond was written, whatever the system does.",
  "all buffers, limits and outcomes of the system call", "Depends on how the system call fails.", ["amtl/os/am-system-errors.h: FormatSystemErrorCode, FormatSystemError"])

p("C92", "Thread-safe reference counting is safe on weakly ordered hardware",
  "With atomics that behave only as the C++ memory model promises for the memory orders the code uses (not sequentially consistently), clients of RefcountedThreadsafe that own what they release never cause a use after free, a double deletion or a data race between the construction, use and deletion of an object; every object is deleted at most once, and when no operation is in progress an object is alive iff something refers to it.",
  "all numbers of threads, all executions the memory model allows (which message every atomic access reads, where every store goes), with and without reuse of addresses", "Weak-memory executions rarely show up on the test hardware, and cannot be enumerated.", ["amtl/am-refcounting-threadsafe.h: RefcountedThreadsafe::AddRef, Release"])
p("C93", "AtomicRef is safe and linearizable on weakly ordered hardware",
  "The same for AtomicRef: concurrent get(), assignment and destruction cause no use after free, no double deletion and no data race, and what clients observe is what some sequentially consistent execution would show; in particular get() and assignment are linearizable.",
  "all executions the memory model allows, any number of threads and AtomicRefs", "Requires a particular reuse of an address at a particular moment on weakly ordered hardware.", ["amtl/am-refcounting-threadsafe.h: AtomicRef::lock, unlock, get, operator=, ~AtomicRef"])

p("C94", "Restyling changes only white space",
  "The text the restyler writes has the same characters in the same order as its input, apart from white space; literals and comments are unchanged.",
  "all source texts, all syntax trees, all lexers", "Every layout of every source.", ["tools/restyler/amstyler.cpp: MyASTVisitor"])
p("C95", "The restyler returns on every source",
  "On a source that clang accepts the restyler fails no assertion, dereferences no null pointer and does not loop for ever.",
  "all source texts and syntax trees, debug and release builds", "Every layout of every source.", ["tools/restyler/amstyler.cpp: MyASTVisitor"])
p("C96", "The restyler applies its documented rules, and only then",
  "The brace of an if/while/switch/for/catch whose parentheses span lines, and of a function whose name is in the first column or whose prototype spans lines, moves to its own line with the indentation of the line where the statement starts, exactly if it was on the line of the closing parenthesis; the braces of an empty function are joined; a comma in front of an initializer moves behind the initializer before it; \"operator\" is separated from its symbol. No other edit is made in a file.",
  "all texts, positions, and files with any number of statements and functions", "All layouts.", ["tools/restyler/amstyler.cpp: maybeSplitBrace, VisitFunctionDecl, maybeFixEmptyFunction, getIndentForLine"])
p("C97", "Restyling is idempotent",
  "Running the restyler on its own output changes nothing.",
  "all texts", "All layouts, repeated runs.", ["tools/restyler/amstyler.cpp: MyASTVisitor"])
p("C98", "The restyler does not lose files",
  "With -i, at every moment the file has either its old or its complete new text; failure is reported and leaves the file as it was; a failing file does not stop the others; without -i nothing is written.",
  "all inputs, crash points, write errors", "Crash points and full disks.", ["tools/restyler/amstyler.cpp: ToolMain::RunForPath, ToolMain::Run"])
p("C99", "The include paths are those the compiler lists",
  "The search paths are exactly the trimmed non-blank lines between the two marker lines of the compiler's output.",
  "all outputs of the compiler", "Unusual outputs (long lines, no compiler).", ["tools/restyler/amstyler.cpp: ToolMain::GetSearchPaths"])

p("C100", "Operations on an AtomicRef complete under every fair scheduler",
  "From every reachable state, if every thread keeps getting turns, all operations in progress on AtomicRefs complete; only the wait for the lock is unbounded: any operation past it completes within seven of its own turns whatever the others do.",
  "all reachable states, numbers of threads and cells, and fair schedules", "Infinitely many schedules; a hang only shows under rare interleavings.", ["amtl/am-refcounting-threadsafe.h: AtomicRef::lock, unlock, get, operator="])
p("C101", "AtomicRef operations do not block each other",
  "AtomicRef is non-blocking: an operation of one thread completes even if other threads are suspended inside an operation or keep operating on the same AtomicRef.",
  "all reachable states and schedules, fair or not", "Suspension at every point of every operation.", ["amtl/am-refcounting-threadsafe.h: AtomicRef::lock, unlock"])
p("C102", "Objects are stored at addresses suitable for their type",
  "The value of a Maybe, an inline Function callable, an entry of a HashMap or HashSet, and an element of a FixedArray lie inside their container's storage, apart from each other, and at a multiple of the alignment of their type.",
  "all sizes and alignments of the element type, all platform alignments, all addresses", "Misalignment depends on the address the container happens to get.", ["amtl/am-storagebuffer.h: StorageBuffer", "amtl/am-maybe.h: Maybe", "amtl/am-function.h: function storage", "amtl/am-hashtable.h: createTable", "amtl/am-fixedarray.h: FixedArray"])
p("C103", "File queries say exactly what a path names",
  "PathExists, IsFile and IsDirectory return true exactly if the path, symbolic links followed, names something, a regular file, a directory; never both of the latter; on Windows exactly according to the attribute word.",
  "all file systems (links, loops, permissions), all paths, all attribute words", "Tests only see the directories of the test machine.", ["amtl/os/am-fsutil-posix.h: PathExists, IsFile, IsDirectory", "amtl/os/am-fsutil-windows.h: PathExists, IsFile, IsDirectory"])
p("C104", "CreateDirectory creates, or changes nothing",
  "If CreateDirectory returns true the path did not exist, is now an empty directory and every other path still leads where it led; if it returns false nothing has changed; of any number of concurrent calls for a path that nobody removes at most one returns true; it succeeds if the path does not exist, the parent may be changed and there is room.",
  "all file systems, paths, rights, and histories of any number of processes", "Races between processes.", ["amtl/os/am-fsutil-posix.h: CreateDirectory"])

p("C105", "NewThread runs the callable exactly once, with what it was given",
  "A successful NewThread leads to exactly one invocation of the callable, by the new thread and after the thread has the given name, with the arguments and the name as they were at the call (std::ref arguments: as they are at the invocation), whatever happens to the caller's variables and buffers afterwards; no other thread invokes it.",
  "all executions of any number of threads, all arguments, names, platforms", "The race between the new thread and the caller reusing its buffers.", ["amtl/am-thread.h: NewThread"])
p("C106", "SetThreadName names the thread and leaves nothing behind",
  "After SetThreadName the current (or the given) thread has the given name; nothing else is changed, and no library reference is left.",
  "all names, platforms, states", "System versions without SetThreadDescription, unusual names.", ["amtl/am-thread.h: SetThreadName"])
p("C107", "Every parse() overload reads the same command line",
  "parse(argc, argv) with argv[0] the program, parse(vector<const char*>), parse(vector<string>) and parsev(..., nullptr) give the same result and leave the parser in the same state for the same arguments.",
  "all parsers, parser states and argument lists", "equality must hold for every argument list and state",
  ["amtl/experimental/am-argparser.h: Parser::parse", "amtl/experimental/am-argparser.h: Parser::parsev"])
p("C108", "A parser has the options registered for it, the first one owning a name",
  "After any sequence of constructions a Parser knows the help option (if it has a help text), then the static options constructed before it, then those constructed with it, in order; where names coincide the first registered option receives the argument.",
  "all histories of option and parser constructions, calls and resets", "ranges over histories of constructions",
  ["amtl/experimental/am-argparser.h: Parser::Parser", "amtl/experimental/am-argparser.h: Parser::add", "amtl/experimental/am-argparser.h: Parser::add_static_option", "amtl/experimental/am-argparser.h: Parser::find_long"])
p("C109", "Parsers in one program do not influence each other",
  "What a Parser accepts and the values its options hold depend only on the calls made on that Parser.",
  "all histories over any number of parsers", "ranges over all interleavings of calls on several parsers",
  ["amtl/experimental/am-argparser.h: Parser::parse_impl", "amtl/experimental/am-argparser.h: Parser::reset", "amtl/experimental/am-argparser.cpp: Parser::sStaticOptions"])

p("C110", "Destructors may use RefPtrs",
  "Whatever the destructors of counted objects do with RefPtrs (global ones and their own members: read, copy, reset, assign, create objects), no object is used after its destruction or destroyed twice, and whenever the program is at rest every object is alive exactly while a RefPtr refers to it, its count is the number of RefPtrs, and nothing is leaked.",
  "all classes and destructor bodies, all programs, all depths of nested destruction, debug and release builds", "Re-entrancy depends on which object happens to lose its last reference in the middle of which statement.",
  ["amtl/am-refcounting.h: RefPtr::operator =", "amtl/am-refcounting.h: RefPtr::~RefPtr", "amtl/am-refcounting.h: Refcounted::Release"])
p("C111", "A rejected command line is explained",
  "A program that calls usage() when parse() returned false prints the usage line and a message that names the offending argument or option and the kind of mistake; after a request for help it prints the help text; an accepted command line leaves nothing to report.",
  "all parsers, texts and argument vectors", "Which of the messages appears, with which name and value, depends on the whole command line and the parser's set-up.",
  ["amtl/experimental/am-argparser.h: Parser::unrecognized_option", "amtl/experimental/am-argparser.h: Parser::option_invalid_value", "amtl/experimental/am-argparser.h: IOption::pretty_name", "amtl/experimental/am-argparser.h: Parser::usage"])
p("C112", "Combining hashes keeps the second hash",
  "HashCombine(a, b) is a 32-bit hash, and for a fixed first hash different second hashes give different results.",
  "all 32-bit hashes", "The collisions are pairs among 2^64 inputs; which they are follows only from the arithmetic.",
  ["amtl/am-hashtable.h: HashCombine"])
p("C113", "Resizing is constant work per add on average",
  "Over any history of a hash table the slots read and cleared by all its resizes together are at most a constant times the initial capacity plus a constant times the number of adds; a table doubles exactly when more than three quarters of its slots are in use and halves when fewer than a quarter are, only in add and checkDensity(), and never below the initial capacity.",
  "all histories, hash functions, initial capacities, allocation outcomes", "An amortised bound is a statement about every history; thrashing between two sizes needs a particular interleaving of adds, removals and removed marks.",
  ["amtl/am-hashtable.h: HashTable::checkDensity", "amtl/am-hashtable.h: HashTable::shrink", "amtl/am-hashtable.h: HashTable::grow", "amtl/am-hashtable.h: HashTable::underloaded", "amtl/am-hashtable.h: HashTable::overloaded"])

p("C114", "The helpers of am-utility.h mean what they say",
  "IS_ALIGNED(addr, a) answers whether the power of two a divides the address, for every integer type a may have; ARRAY_LENGTH of an array is its number of elements; MemsetZero clears the object and nothing else.",
  "all addresses, alignments and integer types, 32- and 64-bit platforms, all array lengths and memories", "Which operand types lose bits in the mask only shows at particular widths and addresses.",
  ["amtl/am-utility.h: IS_ALIGNED", "amtl/am-utility.h: ARRAY_LENGTH", "amtl/am-utility.h: MemsetZero"])
p("C115", "Integers survive being stored as pointers",
  "A value of an integer type put into a ThreadLocal comes back unchanged, and cast_to_pointer maps different values to different pointers.",
  "all integer types and values, 32- and 64-bit platforms", "Values that do not survive exist only for some combinations of type and platform, among 2^64.",
  ["amtl/am-utility.h: cast_to_pointer", "amtl/am-threadlocal.h: ThreadLocal::internalGet", "amtl/am-threadlocal.h: ThreadLocal::internalSet"])
p("C116", "Callables may use Functions",
  "Whatever the bodies and destructors of callables do with Functions (call, test, clear, assign, move them, the one they are held by included), a Function behaves as an optional callable: no callable is used after its destruction, destroyed twice or leaked, and calls and destructions happen as if a Function that loses its callable were empty from then on.",
  "all callable classes, bodies, destructors and programs, all depths of nesting", "Re-entrancy depends on which callable is destroyed in the middle of which statement.",
  ["amtl/am-function.h: Function::operator =", "amtl/am-function.h: Function::destroy", "amtl/am-function.h: Function::move", "amtl/am-function.h: Function::operator ()"])
p("C117", "Mutex regions exclude each other",
  "Threads that bracket their critical regions with lock() and unlock() and assert ownership only inside them never run two regions at once, never meet undefined behaviour or a failing assertion, and can always all finish, in debug and in release builds.",
  "all numbers of threads, programs and schedules, both builds", "ranges over all interleavings, including those between taking the lock and recording the owner",
  ["amtl/am-mutex.h: Mutex::lock", "amtl/am-mutex.h: Mutex::unlock", "amtl/am-mutex.h: Mutex::AssertCurrentThreadOwns"])
p("C118", "A hash table stays intact whatever its HashPolicy answers",
  "Even if hash() and matches() answer inconsistently, from one call to the next or against each other, every call returns, touches only memory the table owns and constructs and destroys each payload once, and the table is a bag: a lookup yields one of its payloads accepted by matches or nothing, an add puts one payload in, a removal takes at most one out, iteration yields each payload once; none appears or is lost.",
  "all hash and matches functions, chosen anew for every call, all histories, capacities and configurations", "An arbitrary policy breaks the search invariants in ways that depend on the whole history.",
  ["amtl/am-hashtable.h: HashTable::lookup", "amtl/am-hashtable.h: HashTable::add", "amtl/am-hashtable.h: HashTable::remove", "amtl/am-hashtable.h: HashTable::changeCapacity"])
p("C119", "A table accepts parts of its own payloads",
  "Adding to a hash table, set or map a payload built from a reference into one of the payloads it already holds has the effect of adding one built from a copy.",
  "all reachable tables, keys, payloads, conversions and allocation outcomes", "The reference dies only when the add happens to resize the table, which depends on the whole history.",
  ["amtl/am-hashtable.h: HashTable::add", "amtl/am-hashtable.h: HashTable::internalAdd", "amtl/am-hashset.h: HashSet::add", "amtl/am-hashmap.h: HashMap::add"])
p("C120", "Containers use the AllocPolicy they are given",
  "A container asks the policy object passed to its constructor for memory, returns each block to the policy it came from, keeps the policy when it is moved, and allocPolicy() is that policy.",
  "all programs over HashTable, HashMap, HashSet and FixedArray objects, all policies, all allocation outcomes", "Stateless policies hide every mix-up; which object is asked matters only for policies with state, along whole histories.",
  ["amtl/am-hashtable.h: HashTable::allocPolicy", "amtl/am-hashmap.h: HashMap::allocPolicy", "amtl/am-hashset.h: HashSet::allocPolicy", "amtl/am-fixedarray.h: FixedArray::FixedArray"])

p("C121", "Payload destructors may use the table",
  "When a HashTable, HashMap or HashSet destroys an element - in remove(), removeIfExists(), clear() or its own destructor - the element's destructor may itself call the table: the element is already out of the collection when its destructor runs, every other element is found, counted and removable as usual, and each payload is destroyed exactly once.",
  "every hash policy, every assignment of programs (lookups, removals, additions, clear, elements) to payload destructors, every sequence of client calls, every nesting of destructors",
  "Re-entrancy multiplies the histories: which slots a nested lookup crosses depends on collisions and on how far an enclosing loop has come; a test sees one layout, and the failures (double destruction, missed elements) need particular collisions",
  ["amtl/am-hashtable.h:HashTableEntry::destruct", "amtl/am-hashtable.h:HashTable::removeEntry", "amtl/am-hashtable.h:HashTable::clear", "amtl/am-hashtable.h:HashTable::~HashTable"])
p("C122", "InlineList iterators survive changes elsewhere in the lists",
  "An iterator or reverse_iterator of an InlineList denotes its node whatever else happens: after any appends, removals, erasures, unlinkings, list constructions and destructions that leave its node in some list, incrementing it (prefix or postfix) yields the node that follows (or precedes) its node in the list that node is in at that time, or that list's end; copies, dereferences and comparisons agree with that; erase(it) removes exactly that node, returns the iterator to the next one, and leaves every other iterator as it was.",
  "every program over any number of lists, nodes and iterator variables, in debug and release builds, that advances or erases an iterator only while its node is in a list",
  "The interleavings of list changes and of steps of several live iterators are unbounded; a test exercises a few erase-while-walking loops",
  ["amtl/am-inlinelist.h:InlineList::iterator", "amtl/am-inlinelist.h:InlineList::reverse_iterator", "amtl/am-inlinelist.h:InlineList::erase", "amtl/am-inlinelist.h:InlineList::begin", "amtl/am-inlinelist.h:InlineList::rend"])
p("C123", "Options and parsers may be destroyed in any order",
  "Options, positional options and parsers of am-argparser.h may be destroyed in any order: the objects that remain keep the values and the behaviour they would have had, a parser one of whose options has been destroyed may still parse and be reset, and new parsers may be constructed after a static option is gone.",
  "every program that constructs static and own options, positionals and parsers, parses, resets, reads values and destroys objects, in any order",
  "Orders of construction, destruction and use are unbounded; the tests keep every option alive as long as its parser",
  ["amtl/experimental/am-argparser.h:IOption::~IOption", "amtl/experimental/am-argparser.h:Option::~Option", "amtl/experimental/am-argparser.h:Parser::add", "amtl/experimental/am-argparser.h:Parser::reset", "amtl/experimental/am-argparser.h:Parser::parse_impl", "amtl/experimental/am-argparser.h:Parser::add_static_option", "amtl/experimental/am-argparser.h:Parser::usage"])
p("C124", "What a header provides does not depend on the headers included before it",
  "What a header of amtl contributes to a translation unit, its code, the system headers it includes and the macros it defines, is the same whether it is included first, after any other headers of amtl, through another header, or several times; whether the unit is rejected does not depend on the order either.",
  "every environment of predefined macros that leaves the names of amtl alone, every sequence of includes of the headers of amtl, of any length and with repetitions",
  "There are unboundedly many include sequences, and one test build sees one platform, one compiler and the few sequences of the test files",
  ["amtl/am-float.h:FloatModulo", "amtl/os/am-system-errors.h:FormatSystemErrorCode", "amtl/am-string.h:KE_WINDOWS", "amtl/am-platform.h:KE_WINDOWS"])
p("C125", "The platform macros name the operating system, the architecture and the compiler",
  "Whatever headers a translation unit includes, either none of the platform macros is defined, or exactly those of its operating system and family, exactly one architecture macro and exactly those of its compiler; KE_WINDOWS and KE_POSIX are never both defined.",
  "every environment of predefined macros that leaves the names of amtl alone, every sequence of includes of the headers of amtl",
  "The environments are unbounded, and each test run sees the one it was built in",
  ["amtl/am-platform.h:KE_WINDOWS", "amtl/am-platform.h:KE_POSIX", "amtl/am-platform.h:KE_ARCH_X64", "amtl/am-platform.h:KE_CXX_LIKE_GCC"])
p("C126", "Compilers older than the supported ones are rejected, others are not",
  "A translation unit that includes am-cxx.h is rejected if the compiler is older than clang 3.4, GCC 4.9 or Visual Studio 2015, Apple's numbering of clang taken into account, or is none of these; with other compilers no choice of headers is rejected, except that am-string.h is rejected on unknown operating systems.",
  "every environment of predefined macros that leaves the names of amtl alone, every sequence of includes of the headers of amtl",
  "A test run sees one compiler in one version, and an unsupported one runs no tests",
  ["amtl/am-cxx.h:KE_CLANG_AT_LEAST", "amtl/am-cxx.h:KE_CLANG_MAJOR", "amtl/am-cxx.h:KE_GCC_AT_LEAST", "amtl/am-string.h:KE_FMT_SIZET"])
p("C127", "Functions captured by callables are part of the captured value",
  "A Function whose callable owns Functions, because a closure captures them or because a non-const lvalue Function was wrapped, is a value that contains theirs: a copy contains copies, reassigning, moving or clearing a Function, at any depth of captures, changes what it and the Functions around it call and nothing else, every assignment gives the target the value the source had, and every holder is freed exactly once by the time the Functions have gone out of scope.",
  "every program that sets, copies, moves, wraps, clears and calls Functions, variables or captures of captures to any depth",
  "Nesting depth, number of captures and order of statements are unbounded; the tests capture no Functions",
  ["amtl/am-function.h:Function::operator =", "amtl/am-function.h:Function::destroy", "amtl/am-function.h:Function::assign", "amtl/am-function.h:Function::move", "amtl/am-function.h:FunctionHolder::clone"])
p("C128", "The reference count cannot wrap while its references are held in memory",
  "The reference count is an unsigned integer as wide as a pointer and wraps silently. It is exact all the same: as long as there are fewer pointers in memory than the count has values, a program runs exactly as it would with an unbounded count, no object is destroyed while a handle refers to it and none is leaked. Only references that are recorded nowhere can exhaust it, and then the object is destroyed under them.",
  "every width of the count, every program over RefPtr, AlreadyRefed and owned raw pointers, every object graph, destructors that only destroy their members and destructors that use RefPtrs themselves, debug and release builds; every number of unrecorded AddRef calls",
  "No test can make 2^32 or 2^64 references", ["amtl/am-refcounting.h:Refcounted::AddRef", "amtl/am-refcounting.h:Refcounted::Release", "amtl/am-refcounting.h:VirtualRefcounted::AddRef", "amtl/am-refcounting.h:RefPtr"])
p("C129", "PriorityQueue operations make logarithmically many comparisons, with any comparator",
  "The comparator may be any callable, even one whose answers depend on earlier calls or contradict each other: no sequence of operations faults, loops, loses or duplicates an item. An add to a queue of n items calls it at most log2(n+1) times, a pop at most 2*log2(n-1) times, the other members never; it is only ever called on items in the queue; sorting n items takes at most 3*n*log2(n) calls; and these bounds are attained.",
  "every item type, every comparator with any state, every sequence of operations on a queue, every queue size",
  "Worst cases over all inputs and all comparators; tests observe single runs with an order", ["amtl/am-priority-queue.h:PriorityQueue::propagateUp", "amtl/am-priority-queue.h:PriorityQueue::propagateDown", "amtl/am-priority-queue.h:PriorityQueue::add", "amtl/am-priority-queue.h:PriorityQueue::pop"])
p("C130", "Maybe survives exceptions thrown by T's constructors",
  "When a constructor of T throws inside any Maybe operation and the client catches the exception, the Maybe has a definite meaning: a constructor that threw leaves no variable, an assignment or init that threw leaves it empty, the source of a copy is untouched. No T is destroyed twice, read when it does not exist, or leaked because of the exception.",
  "every T, every pattern of throwing constructions, every sequence of operations on any number of Maybes, each statement in its own try/catch",
  "A test injects one exception at one point; the claim is about every point of every program", ["amtl/am-maybe.h:Maybe::init", "amtl/am-maybe.h:Maybe::copyFrom", "amtl/am-maybe.h:Maybe::moveFrom", "amtl/am-maybe.h:Some"])
p("C131", "FixedArray survives exceptions thrown by T's constructors",
  "When a constructor of T throws inside a FixedArray constructor or copy assignment and the client catches the exception, the elements already built are destroyed, storage is freed, other arrays are untouched, and an array that was being assigned to can still be ended.",
  "every T, every element count, every pattern of throwing constructions, every sequence of operations on any number of arrays, each statement in its own try/catch",
  "A test injects one exception at one point; the claim is about every point of every program", ["amtl/am-fixedarray.h:FixedArray::FixedArray", "amtl/am-fixedarray.h:FixedArray::operator=", "amtl/am-fixedarray.h:FixedArray::destruct"])
p("C132", "Function survives exceptions thrown by callables' constructors",
  "When copying or moving a callable throws inside any Function operation and the client catches the exception, the Function being built does not exist, the one being assigned to is empty or at least can be ended, the source still holds its callable; no callable is destroyed twice, called after its end, or leaked.",
  "every callable type, inline or on the heap, every pattern of throwing constructions, every sequence of operations on any number of Functions, each statement in its own try/catch",
  "A test injects one exception at one point; the claim is about every point of every program", ["amtl/am-function.h:Function::operator=", "amtl/am-function.h:Function::assign", "amtl/am-function.h:Function::move", "amtl/am-function.h:FunctionHolder::clone"])
p("C133", "HashTable survives exceptions thrown by payloads",
  "When constructing a payload throws inside HashMap::add, HashTable::add, or a resize and the client catches the exception, the table still holds exactly the payloads it held, can be used, and can be ended without destroying anything twice or losing memory.",
  "every hash policy, every reachable table of any capacity, every insertion that would succeed, every resize and every payload in it whose move throws, every sequence of calls mixed with throwing insertions",
  "A test throws at one point of one table; the claim is about every table and every point", ["amtl/am-hashtable.h:HashTable::add", "amtl/am-hashtable.h:HashTable::changeCapacity", "amtl/am-hashmap.h:HashMap::add"])
p("C134", "PriorityQueue survives a comparator that throws",
  "When the comparator throws inside add or pop and the client catches the exception, the queue holds the items it held before or after the call, none of them moved from, and can be used.",
  "every item type, every comparator with a state that answers or throws as it likes, every history of calls that respects empty()",
  "A test throws at one comparison of one history; the claim is about every comparison of every history", ["amtl/am-priority-queue.h:PriorityQueue::add", "amtl/am-priority-queue.h:PriorityQueue::pop", "amtl/am-priority-queue.h:PriorityQueue::propagateUp", "amtl/am-priority-queue.h:PriorityQueue::propagateDown"])
p("C135", "A thread-safe count as wide as a pointer does not wrap",
  "With refcount_ an unsigned integer of w bits that wraps, a program in which fewer than 2^w references to one object exist at a time (as it must if memory holds fewer than 2^w pointers) behaves as if the count were unbounded: nothing faults and objects are deleted exactly when their last reference goes.",
  "every width, any number of threads, AtomicRefs, objects and steps, any interleaving",
  "A test cannot create 2^32 references; the claim is about the arithmetic of every schedule", ["amtl/am-refcounting-threadsafe.h:RefcountedThreadsafe::AddRef", "amtl/am-refcounting-threadsafe.h:RefcountedThreadsafe::Release", "amtl/am-refcounting-threadsafe.h:AtomicRef"])
p("C136", "A HashTable is unharmed by a HashPolicy that throws or changes its mind",
  "Whatever hash and matches answer each time they are called, even within one lookup, and whichever of those calls throws, every history of calls terminates without a fault, neither leaks nor destroys a payload twice, and the table behaves as a bag of payloads that a call that throws leaves exactly as it was.",
  "every payload type, every behaviour of hash and matches at every call, every history of calls, every capacity and allocation outcome",
  "A test throws at one comparison of one history; the claim is about every comparison, every answer and every history", ["amtl/am-hashtable.h:HashTable::find", "amtl/am-hashtable.h:HashTable::findForAdd", "amtl/am-hashtable.h:HashTable::add", "amtl/am-hashtable.h:HashTable::removeIfExists"])
p("C137", "Scopes of am-raii.h under exceptions",
  "When copies and assignments of T, and callbacks, throw: a SaveAndSet scope left by an exception restores its location, a ScopeGuard runs its callback exactly once unless cancelled, ReturnAndVoid either returns the old value or changes nothing, and the exception can be handled outside the scope.",
  "all programs of nested scopes, guards, cancellations and handlers; every set of copies that throw; every effect of a failed assignment",
  "Which copy throws, at which depth of which unwinding, is unbounded; the tests use types that do not throw",
  ["amtl/am-raii.h: SaveAndSet", "amtl/am-raii.h: ScopeGuard", "amtl/am-raii.h: MakeScopeGuard", "amtl/am-raii.h: ReturnAndVoid"])
p("C138", "PriorityQueue survives items whose moves throw",
  "When a move of an item throws inside add() or pop(), the exception reaches the caller, the queue still holds exactly the items it should, none of them moved from, and offers them in priority order.",
  "all queues without moved-from items, all comparators, every set of moves that throw, return values elided or not",
  "Which of the moves of which call throws is unbounded; the tests use items whose moves do not throw",
  ["amtl/am-priority-queue.h: PriorityQueue::add", "amtl/am-priority-queue.h: PriorityQueue::pop", "amtl/am-priority-queue.h: PriorityQueue::propagateUp", "amtl/am-priority-queue.h: PriorityQueue::propagateDown"])
out = os.path.join(os.path.dirname(os.path.abspath(__file__)), "..", "properties.jsonl")
with open(out, "w") as f:
    for q in P:
        f.write(json.dumps(q) + "\n")
print(len(P), "properties")
