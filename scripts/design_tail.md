## What is modelled, file by file

| file in /repo | modelled | not modelled |
|---|---|---|
| amtl/am-hashtable.h, am-hashmap.h, am-hashset.h, am-allocator-policies.h | all operations, hash functions, allocation failure, lifetimes, arbitrary hash policies (HashRobust*.v), aliased adds (HashAlias*.v), policy objects (Policy*.v), destructors that use the table (HashReenter*.v), payloads whose constructors throw (HashThrow*.v), policies with state and policies that throw (HashOracle*.v) | exceptions thrown by destructors; the statistical quality of the hashes |
| amtl/am-bits.h, am-arithmetic.h | all functions, per compiler branch | - |
| amtl/am-priority-queue.h | all; comparators with state, number of comparisons (PQCost*.v); comparators that throw (PQThrow*.v), items whose moves throw (PQMove*.v) | std::vector growth; comparators and moves that throw in one program |
| amtl/am-inlinelist.h | all; iterators as long-lived objects (InlineIter*.v) | - |
| amtl/am-refcounting.h | RefPtr, AlreadyRefed, Refcounted, VirtualRefcounted; destructors that run client code (Reenter*.v), their termination (ReEnd*.v); counts of finite width (RcWidth*.v), also with such destructors (ReWidth*.v) | - |
| amtl/am-refcounting-threadsafe.h | all; sequentially consistent and C++11 memory model | wraparound of the count in the C++11 memory model (AtomicWidth*.v has it, sequentially consistent), out-of-thin-air executions |
| amtl/am-string.h, amtl/os/am-path.h | SafeStrcpy, SafeStrcpyN, SafeStrcat, SafeSprintf/SafeVsprintf, Sprintf, Split, Join, StartsWith, EndsWith, case mapping, path functions | locale dependence of toupper; the format language of vsnprintf |
| amtl/am-maybe.h, am-fixedarray.h, am-storagebuffer.h | all; exceptions thrown by T's constructors (MaybeThrow*.v, FixedArrayThrow*.v) | exceptions thrown by T's destructor or operators |
| amtl/am-function.h | holders, copies, moves, calls, inline storage; callables that use Functions themselves (FnReenter*.v), callables that own Functions (FnNest*.v), exceptions thrown when a callable is copied or moved (FnThrow*.v) | exceptions thrown by calls and destructors (AMBuildScript compiles with -fno-exceptions); callables that both own Functions and use others when copied or destroyed |
| amtl/am-utility.h | IS_ALIGNED, ARRAY_LENGTH, MemsetZero, cast_to_pointer | KE_CRITICAL_LIKELY (a hint to the optimiser) |
| amtl/am-flags.h, am-enum.h, am-raii.h | all; exceptions thrown by copies and callbacks (RaiiThrow*.v) | StackLinked under exceptions (its members do not throw) |
| amtl/am-threadlocal.h, am-mutex.h | ThreadLocal over pthread keys, mutex wrappers | see the table of properties |
| amtl/experimental/am-argparser.h, .cpp | parser, all option kinds, all parse overloads, static options and several parsers, usage text, error texts, destruction of options and parsers, also before usage() (ArgLife*.v) | FILE* output |
| amtl/am-float.h, am-time.h | all | std::chrono internals |
| amtl/am-vector.h, am-deque.h | all | std::vector/std::deque internals |
| amtl/os/am-shared-library.h, os/am-system-errors.h | all, POSIX and Windows | the dynamic linker itself |
| tools/restyler/amstyler.cpp | TextRewriter, the visitors, the driver | clang: the lexer and the syntax tree are inputs of the model |
| amtl/os/am-fsutil-posix.h, am-fsutil-windows.h | queries and CreateDirectory over a file system model | trailing slashes, name length limits, the Windows path syntax |
| amtl/am-thread.h | SetThreadName, NewThread on Linux, macOS, Windows | memory orders, joining (std::thread) |
| amtl/am-platform.h, am-cxx.h, am-unused.h, am-linking.h, am-assert.h | all conditionals and includes (HeadersModel.v) | the replacement texts of KE_LINKONCE, KE_DLL_EXPORT, KE_UNUSED etc. in program text |
| the preprocessor directives of all headers of amtl | Preproc*.v, HeadersModel.v | expansion of macros in program text; macros defined by system headers |

## Findings

Violated properties, each with a `_refuted` theorem and its exact extent: see the notes of the
properties marked *partial* above.  None of the refutations depends on an axiom or on an unreachable
state: each is a run of the model from its initial state, or holds of every reachable state.

## Wrong programs

`seeded/mutations/*.json` are edits of the model the way a bug would change the program;
`scripts/mutate.py` applies each to a scratch copy, rebuilds and appends the theorems that stop
proving to `seeded/LOG.jsonl`.  Survivors led to tightened theorems (field `theorems_tightened`).

## Building

`cd rocq && coq_makefile -f _CoqProject -o Makefile && make -j4` (about six minutes on four cores).
