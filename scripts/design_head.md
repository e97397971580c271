# A Rocq (Coq 8.16.1) model of alliedmodders/amtl

This file is written by `scripts/gen_design.py` from `scripts/design_head.md`, `scripts/design_tail.md`,
`properties.jsonl` and `MANIFEST.json`.

## Method

AMTL is a header-only C++ library.  The source is read as text and transcribed, function by
function, into executable Gallina.  Every model definition cites the file and lines it models and
states any simplification.  Conventions:

* **Undefined behaviour, assertion failure, abort and leaks are outcomes**, not assumptions:
  `Base.outcome A := Ok a | Fault f | Diverge`.  A null dereference, out-of-range access, use of a
  freed or unconstructed object, signed overflow, bad shift, data race, failed `assert` (debug
  builds) and `abort()` are distinct `fault`s.  Loops whose termination is not structural run on fuel
  and give `Diverge` when it is exhausted; theorems exclude it.
* **Machine integers** are `N`/`Z` with an explicit `mod 2^w` wherever the C++ type wraps.
* **Build modes** (`NDEBUG`, compiler, data model LP64/ILP32/MSVC, char signedness, byte order,
  platform) are parameters where the code branches on them.
* **External code** (malloc, vsnprintf, dlopen, pthread_key_create, fmod, the scheduler) is an oracle
  argument quantified over in the theorems, restricted only by its documented contract.  Where a
  contract is assumed, an instance that meets it is exhibited.
* **Concurrency** is an interleaving of atomic steps, sequentially consistent (C39-C42, C70-C72); for
  the reference counts and AtomicRef also the C++11 memory model (C92-C93).
* Each area `X` has `XModel.v` (transcription), `XSpec.v` (the small independent specification the
  statements use), `XProofs.v` (lemmas) and `XProps.v` (the property theorems, each with
  `Print Assumptions` and concrete non-vacuity `Example`s).
* A property that the code violates is stated in full, refuted by a theorem `…_refuted` (universal
  where possible, otherwise a witness run of the model), and accompanied by the strongest true version
  `…_partial`.

## Trusted base

* Coq 8.16.1's kernel (`vm_compute` is used in examples and a few finite case analyses; no
  `native_compute`), the Coq standard library, coq_makefile/make.
* Axioms: **none**.  `Print Assumptions` answers "Closed under the global context" for every theorem in
  MANIFEST.json.  (A scan of the loaded libraries lists seven opaque constants of `Coq.ssr.ssrunder`,
  which come with the standard library's plugin files and which no theorem here uses.)
* No Admitted, no functors, no module types, no `Declare Module`, no plugins, no kernel flags.
* The faithfulness of the transcription: each model definition against the C++ lines it cites.
* The informal reading of the C++ standard that decides which operations are faults.
* That the `XSpec.v` definitions and the theorem statements say what properties.jsonl says.
