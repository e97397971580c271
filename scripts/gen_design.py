#!/usr/bin/env python3
"""Writes DESIGN.md from the text below, properties.jsonl and MANIFEST.json."""
import json, os
V = os.path.join(os.path.dirname(os.path.abspath(__file__)), "..")
props = [json.loads(l) for l in open(V + "/properties.jsonl")]
claims = {c["property"]: c for c in json.load(open(V + "/MANIFEST.json"))["claims"]}
how = {}
def h(rng, files, lines):
    a, b = (rng.split("-") + [rng])[:2]
    for n in range(int(a[1:]), int(b[1:]) + 1):
        how["C%02d" % n] = (files, lines[n - int(a[1:])])

h("C01-C13", "HashTable*.v, HashMap*.v", [
 "slot array (hash word, optional payload), linear probing on fuel, allocation oracle, handles as slot indices; representation invariant and refinement of every operation to a collection of payloads, induction on histories from construction to destruction",
 "invariant 'at least one free slot' bounds every probe, so the fuel never runs out",
 "elements() and the slots visited by iteration compared with the abstract collection",
 "erase through an iterator, by induction on the rest of the table",
 "failed add: the resulting table equals the original one",
 "each slot carries a construct/destroy state; double destruction, leak, use of raw or moved-from storage are faults excluded along every history; the table pointer and the heap blocks are modelled again in HashTableMem*.v, shown to follow the first model step by step, and the block ledger is an invariant",
 "init with a refusing allocator and the destructor that follows: refutation for every capacity, plus the safe paths",
 "the add that meets the capacity limit, exactly; refutation with a table at the limit",
 "move construction as state transfer, destroyed source included",
 "capacity stays a power of two, growth/shrink thresholds from the invariant",
 "position of the inserted entry after add() and possible growth",
 "the same refinement at HashMap's policy: finite map, for every key policy", "same for HashSet"])
h("C14-C17", "HashFn*.v", [
 "32/64-bit words, the incremental hashers as state machines; induction on the byte stream cut arbitrarily",
 "induction on strings", "strict signed semantics (overflow is a fault) beside the wrapping one; all inputs", "algebra of xor, shift and add: an explicit collision for every input, preimage bound, injectivity of the 64-bit mix"])
h("C18-C27", "Bits*.v", [
 "N.log2 specification, one branch per compiler/data model", "same; exact result where the 32-bit builtin is used", "testbit lemmas", "div/mod algebra, overflow of the addition included", "div/mod algebra",
 "shift expression with its width, tag/untag on testbit", "guard expression transcribed, soundness and completeness separated", "same", "full case analysis", "exact characterisation for all inputs"])
h("C28-C30", "PQModel.v, PQSpec.v, PQProofs.v, PQProps.v", ["vector of cells (live/moved-from), sift loops; heap invariant and permutation by induction on histories", "corollary: drained sequence is sorted and a permutation", "moved-from or missing cells are faults; partial operations characterised"])
h("C31-C34", "InlineList*.v", ["store of nodes with next/prev, several lists as disjoint circular segments; refinement to sequences over all histories", "counter compared with the refined sequence: exact value for every history", "link fields after each way of leaving a list", "iteration with removal of the current node; node destructors"])
h("C35-C38", "Refcount*.v", ["heap of counted objects owning other objects, 19 client operations, destructor cascade as a worklist on fuel; counting invariant over the pending worklist", "universal use-after-free theorem for sole handles", "same for move from an owned field", "count differences"])
h("C39-C42", "AtomicRef*.v", ["one thread = a program counter between atomic steps; all interleavings; inductive counting invariant", "Virtual variant of the same machine", "same invariant, get() result", "simulation with explicit linearization points"])
h("C43-C54", "Str*.v", ["byte buffers with bounds, out-of-bounds access is a fault; loop invariants", "same", "same; reads beyond the terminator characterised",
 "vsnprintf as an oracle with its C99 or MSVC contract", "same, two passes over the va_list", "Split/Join by list induction", "same through c_str()", "leftmost-greedy specification, uniqueness",
 "size_t arithmetic explicit", "list induction", "char signedness a parameter, toupper/tolower domain checked", "list induction, both platforms"])
h("C55-C60", "Maybe*.v, FixedArray*.v", ["variables with raw storage and a ledger of constructed/destroyed objects; refinement to option for every program", "ledger accounting", "universal counterexamples in every reachable state", "blocks with element states, allocator oracle; refinement to lists", "leak accounting", "failing allocator and size overflow, universal"])
h("C61-C65", "Function*.v", ["holders inline or on the heap, overload resolution as distinct operations, callables of any size/alignment; refinement over programs", "operator new count and live-object ledger", "universal over reachable states", "universal over reachable states", "size/alignment arithmetic"])
h("C66-C69", "Flags*.v, Raii*.v", ["bit vectors at every width; testbit extensionality", "nested scopes as trees, induction", "guards as histories", "list of guarded scopes, destructor order explicit"])
h("C70-C72", "Sync*.v", ["step machine for ThreadLocal over pthread keys; all schedules", "same machine with the allocation race; `undisturbed` executions for the partial result", "mutex with owner field and native lock; all schedules"])
h("C73-C82", "Arg*.v, Usage*.v", ["parse_impl on C strings, option objects as typed slots; grammar of spellings as a separate specification; induction on the argument vector"] * 1 + ["every parser state and argument vector, fault analysis", "one theorem per kind of malformed input plus an exact grammar of acceptance", "both directions over accepted lines", "exact passthrough list", "stop option after any prefix", "two parses in sequence from arbitrary states", "bool option cases", "strtol transcribed", "layout function on words and lines; usage text as an exact string"])
h("C83-C85", "Float*.v, Time*.v", ["IEEE bit patterns, union in memory with byte order", "fmod as an oracle with the C99 contract, an instance exhibited", "Z with 64-bit range checks"])
h("C86-C88", "Vec*.v, SharedLib*.v", ["lists of live/moved-from cells", "same, aliasing arguments", "refcount model of C35 with a log of dlopen/dlclose"])
h("C89-C91", "Rewrite*.v, SharedLib*.v", ["text and edit deque, sort as any permutation that is ordered", "same", "error buffer with the XSI/GNU/Windows variants"])
h("C92-C93", "Weak*.v", ["operational C++11 memory model (histories, views, release/acquire, RMW atomicity); simulation into the sequentially consistent machine of C39, so its invariant transfers", "same; witness for the release-only compare-exchange"])
h("C94-C97", "Styler*.v", ["text as bytes, clang's lexer and syntax tree as inputs; visitors shown to register edits that only replace white space, then C89", "same edits, fuel-independent; witnesses for the asserting and looping layouts", "rules stated as the set of edits they ask for; visitors shown to register exactly that set on any neat file, then C89; exact output text for one node, indentation specified by line starts", "exact output text fed back; three-run witness"])
h("C98-C99", "Tool*.v", ["histories of file system states during a run", "fgets chunks against a listing given as lines"])
h("C100-C101", "Fair*.v over AtomicRef*.v", ["measure on program counters decreasing at every turn except failed lock attempts, infinite fair schedules as functions", "invariant that a suspended lock holder keeps the tag set; n-round starvation schedule by induction"])
h("C102-C102", "Layout*.v", ["sizes, alignments and addresses as numbers, ABI struct layout function, divisibility of powers of two"])
h("C103-C104", "Fs*.v", ["path walk with link budget against an inductive relation; attribute words bit by bit", "same disk model, histories of events of several processes"])
h("C107-C109", "ArgEntry*.v", ["the loops that collect the arguments, for every overload", "program histories over option objects, static options and parsers; invariant by induction", "simulation of each parser by itself alone, from a separation invariant on the option objects"])
h("C110-C110", "Reenter*.v, ReEnd*.v", ["termination from a potential of the live objects by rank of class; an endless layered program by a run that never gets shorter", "interpreter of client programs with destructor bodies, big-step with fuel; observer that reports uses of a RefPtr under assignment, shown to change nothing; invariant over nested destructions; static ranks/levels discipline"])
h("C111-C111", "Report*.v", ["composition of parse (ArgModel), StringPrintf (StrModel) and usage (UsageModel); induction over the argument loop for what an error can refer to"])
h("C105-C106", "Thread*.v", ["event traces: writes, NewThread, turns; per-thread frame lemma", "same worlds, with the count of kernel32 references"])
h("C112-C112", "HashFn*.v", ["exact value as an arithmetic expression mod 2^32; the map b + b/4 is strictly increasing and spans less than two periods"])
h("C113-C113", "HashTableCostProps.v", ["potential function on capacity, elements and removed marks over the histories of C01; one inequality per step from the shape of each operation, summed by induction"])
h("C114-C115", "Util*.v", ["C++ integer promotions and conversions explicit on Z; masks by bit lemmas; memory as a list of bytes", "residues modulo the pointer width; exact condition on the widths"])
h("C116-C116", "FnReenter*.v", ["interpreter of client programs whose callables have bodies and destructors, big-step with fuel; ranking discipline; footprint invariant lifted through nested runs; simulation by an ideal semantics without storage (FnReenterSpec.v)"])
h("C117-C117", "Mutex*.v over SyncModel.v", ["step machine of C72 for both builds; per-thread invariant relating the calls made, the native lock and the owner field; measure for termination"])
h("C118-C118", "HashRobust*.v", ["histories whose every call brings its own hash and matches; the invariant of C01 with the policy forgotten (distinct slots, tombstones, counters, a free slot) suffices for termination and safety; bag specification"])
h("C119-C119", "HashAlias*.v over HashTableMemModel.v", ["references as (block, slot), followed when the payload is constructed; case analysis on whether internalAdd replaced the block"])
h("C120-C120", "Policy*.v", ["policies as handles; trace of policy calls compared with an ideal container that has one policy (simulation); ownership invariant for the blocks"])
h("C121-C121", "HashReenter*.v over HashTableModel.v", ["destructors as programs of table calls, the slots being destroyed kept in a list; induction on the nesting with the table invariant framed by the dying slots; a weaker invariant without probe chains while clear() runs"])
h("C122-C122", "InlineIter*.v over InlineListModel.v", ["iterator variables as (class, node pointer); specification: a place in the sequences of InlineListSpec, steps related by the sequences at the time of the step; induction on the program with the linked-list invariant plus variable = pointer of its place"])
h("C123-C123", "ArgLife*.v over ArgModel.v, ArgEntryModel.v", ["the option searches, parse(), reset() and the constructor transcribed again with every access through an option pointer checked against the set of destroyed objects; specification: the run of ArgEntryModel in which nothing is destroyed; agreement by induction on the program, refutations by induction on the history up to the faulting call; usage() left out"])
h("C124-C126", "PreprocModel.v (preprocessor), HeadersModel.v (the directives of all 38 headers, written by scripts/gen_headers.py from /repo), PreprocSpec.v, PreprocProofs.v, PreprocFacts.v, PreprocString.v, PreprocProps.v", ["a preprocessor with the predefined macros as a parameter; a static check of an include structure (each tested macro is defined by one file, which is certainly included before the test), proved sound by induction over the include order and run by the kernel on the headers; system headers are recorded by name and define none of the tested macros; macros in program text are not expanded",
  "am-platform.h evaluated symbolically for every environment, carried to every unit by the soundness of the check",
  "am-cxx.h and the last conditional of am-string.h evaluated symbolically for every environment; the files that contain an #error found by computation"])
h("C127-C127", "FnNest*.v", ["Functions as cells over a heap of holders whose callables own cells; specification: a store of trees changed at a path; a representation relation with footprints, in which every holder has one owner, proved to be kept by every statement by induction; a Function between destroy() and its new value is related to an emptied one; refutations for every program that reaches an assignment between nested Functions"])
h("C128-C128", "RcWidth*.v and ReWidth*.v", ["AddRef and Release again with counts modulo 2^width; a simulation of every operation of the unbounded model of C35 that holds as long as no count reaches 2^width, with the count bounded by the places that hold pointers; a closed form for AddRef calls whose reference is recorded nowhere shows the bound is sharp; for destructors that run client code, the interpreter of C110 over an increment that is wrapping, unbounded or observed, and agreement of the three runs unless the observer stops"])
h("C129-C129", "PQCost*.v", ["the queue over a comparator that passes a state and records its calls; counting along the path to the root and down from it, bound by the logarithm of the heap index; exact counts for the comparator that always says yes; a simulation shows that without state this is the queue of C28"])
h("C130-C130", "MaybeThrow*.v", ["an oracle says which construction attempt throws; storage with or without a T, destroying raw storage is a fault; simulation of optional values with throwing statements, for every program without a throwing init over a value, which is refuted in every state"])
h("C131-C131", "FixedArrayThrow*.v", ["the same oracle; blocks of slots kept with the variable that owns them; loop invariants for construction up to the first throw and destruction; simulation of lists with an exact ledger of leaked blocks; every throwing copy assignment refuted"])
h("C132-C132", "FnThrow*.v", ["the same oracle; impl_, the holder in the buffer and the holder on the heap; simulation of optional callables for every program without a bad assignment; every bad assignment refuted"])
h("C133-C133", "HashThrow*.v", ["the functions of HashTableModel.v stopped at the constructor that throws; from the invariant of C01, the state left by add and by the n-th move of a resize is shown to fault at its end, for every reachable table; programs with throwing Entries by induction with the same invariant"])
h("C134-C134", "PQThrow*.v", ["the queue over a comparator that may throw; a queue as a bag of cells, some moved from; the loops permute cells and fault only on a moved-from one; a bag until the first throwing add, every throwing add refuted"])
h("C135-C135", "AtomicWidth*.v", ["the steps on refcount_ transcribed with arithmetic modulo 2^w; lockstep with the unbounded machine by its invariant (count = references) while references stay below 2^w; the wrap reached by an explicit schedule for every w"])
h("C136-C136", "HashOracle*.v", ["the functions that call HashPolicy transcribed with its n-th answer, or an exception, as input; the invariant of C01 for a policy under which nothing matches; a bag as in C118, a throw leaves the same table"])
h("C137-C137", "RaiiThrow*.v", ["interpreter of structured programs with unwinding and std::terminate, copies counted and thrown by an oracle; book-keeping invariant over guards; memory frame by induction; agreement with RaiiModel.v where nothing throws"])
h("C138-C138", "PQMove*.v over PQModel.v", ["every move counted and thrown by an oracle; the cells as a list with one hole; induction over both loops, permutations of lists with a hole; agreement with PQModel.v where nothing throws"])
EXTRA = os.path.join(V, "scripts", "design_extra.json")
if os.path.exists(EXTRA):
    for k, v in json.load(open(EXTRA)).items(): how[k] = tuple(v)

head = open(V + "/scripts/design_head.md").read()
out = [head, "\n## Per property\n",
 "Status and theorem names are those of MANIFEST.json; `_refuted` theorems show that the code violates the property as stated, `_partial` ones are what holds of it.\n"]
for p in props:
    c = claims.get(p["id"], {"status": "?", "theorems": [], "note": ""})
    f, l = how.get(p["id"], ("", ""))
    out.append("* **%s %s** — %s. Files: %s. Model and proof: %s. Theorems: %s.%s\n" % (
        p["id"], p["title"], c["status"], f, l, ", ".join("`%s`" % t for t in c["theorems"]), (" " + c["note"]) if c.get("note") else ""))
out.append("\n" + open(V + "/scripts/design_tail.md").read())
open(V + "/DESIGN.md", "w").write("".join(out))
print("DESIGN.md", len(props), [p["id"] for p in props if p["id"] not in how])
