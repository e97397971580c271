(** The preprocessor directives of every header under /repo/amtl, generated from the source by
    scripts/gen_headers.py.  The text between two directives is one [Text first last] with its line numbers; numbers in
    comments are the lines of the directives.  Simplifications: comments and blank lines are dropped; the bodies of macros
    that are not a number or another macro are replaced by 1 (no directive evaluates them); KE_CLANG_AT_LEAST and
    KE_GCC_AT_LEAST are expanded where directives use them. *)
From Coq Require Import String ZArith.
From Verif Require Import Base PreprocModel.
Local Open Scope string_scope.
Local Open Scope Z_scope.

(** amtl/am-allocator-policies.h:1-73. *)
Definition h_allocator_policies : code :=
  If (ENot (EDefined "_include_amtl_allocatorpolicies_h_")) (* 30 *) (
      Define "_include_amtl_allocatorpolicies_h_" (ENum 1) (* 31 *) (
      System "stdio.h" (* 33 *) (
      System "stdlib.h" (* 34 *) (
      Text 36 52 (
      If (EAnd (EDefined "_DEBUG") (EDefined "_CRTDBG_MAP_ALLOC")) (* 53 *) (
          Text 54 54 (
          Done)) (
          Text 56 56 (
          Done)) (
      Text 58 59 (
      If (EAnd (EDefined "_DEBUG") (EDefined "_CRTDBG_MAP_ALLOC")) (* 60 *) (
          Text 61 61 (
          Done)) (
          Text 63 63 (
          Done)) (
      Text 65 71 (
      Done))))))))) (
      Done) (
  Done).

(** amtl/am-arithmetic.h:1-67. *)
Definition h_arithmetic : code :=
  If (ENot (EDefined "_include_amtl_bits_h_")) (* 29 *) (
      Define "_include_amtl_bits_h_" (ENum 1) (* 30 *) (
      System "algorithm" (* 32 *) (
      Text 34 65 (
      Done)))) (
      Done) (
  Done).

(** amtl/am-assert.h:1-46. *)
Definition h_assert : code :=
  If (ENot (EDefined "_include_amtl_assert_h_")) (* 30 *) (
      Define "_include_amtl_assert_h_" (ENum 1) (* 31 *) (
      System "assert.h" (* 33 *) (
      System "stdlib.h" (* 34 *) (
      If (ENot (EDefined "NDEBUG")) (* 36 *) (
          Define "KE_RELEASE_ASSERT" (ENum 1) (* 37 *) (
          Done)) (
          Define "KE_RELEASE_ASSERT" (ENum 1) (* 39 *) (
          Done)) (
      Done))))) (
      Done) (
  Done).

(** amtl/am-bits.h:1-272. *)
Definition h_bits : code :=
  If (ENot (EDefined "_include_amtl_am_bits_h_")) (* 30 *) (
      Define "_include_amtl_am_bits_h_" (ENum 1) (* 31 *) (
      System "assert.h" (* 33 *) (
      System "stddef.h" (* 34 *) (
      System "stdint.h" (* 35 *) (
      If (EDefined "_MSC_VER") (* 36 *) (
          System "intrin.h" (* 37 *) (
          Done)) (
          Done) (
      System "algorithm" (* 40 *) (
      System "cstddef" (* 41 *) (
      Include "am-cxx.h" (* 43 *) (
      Include "am-platform.h" (* 44 *) (
      Text 46 46 (
      If (EDefined "__STDCPP_DEFAULT_NEW_ALIGNMENT__") (* 48 *) (
          Text 49 49 (
          Done)) (
          If (EDefined "KE_CXX_MSVC") (* 50 *) (
            Text 51 51 (
            Done)) (
            Text 53 54 (
            Done)) Done) (
      Text 57 59 (
      If (EDefined "_MSC_VER") (* 61 *) (
          Text 62 80 (
          If (EDefined "_M_X64") (* 81 *) (
              Text 82 82 (
              Done)) (
              Text 84 89 (
              Done)) (
          Text 91 92 (
          Done)))) (
          Text 94 97 (
          If (EDefined "__GNUC__") (* 99 *) (
              Text 100 100 (
              Done)) (
              Text 102 104 (
              Done)) (
          Text 106 106 (
          Done)))) (
      Text 109 112 (
      If (EDefined "_MSC_VER") (* 114 *) (
          Text 115 117 (
          Done)) (
          If (EMacro "__GNUC__") (* 118 *) (
            Text 119 119 (
            Done)) (
            Done) Done) (
      Text 121 126 (
      If (EDefined "_MSC_VER") (* 128 *) (
          If (EOr (EDefined "_M_IX86") (EDefined "_M_ARM")) (* 129 *) (
              Text 130 133 (
              Done)) (
              If (EOr (EDefined "_M_X64") (EDefined "_M_ARM64")) (* 134 *) (
                Text 135 137 (
                Done)) (
                Done) Done) (
          Done)) (
          If (EMacro "__GNUC__") (* 139 *) (
            Text 140 140 (
            Done)) (
            Done) Done) (
      Text 142 147 (
      If (EDefined "_MSC_VER") (* 149 *) (
          Text 150 150 (
          If (EOr (EDefined "_M_IX86") (EDefined "_M_ARM")) (* 151 *) (
              Text 152 152 (
              Done)) (
              If (EOr (EDefined "_M_X64") (EDefined "_M_ARM64")) (* 153 *) (
                Text 154 154 (
                Done)) (
                Done) Done) (
          Text 156 156 (
          Done)))) (
          If (EMacro "__GNUC__") (* 157 *) (
            If (EDefined "__LP64__") (* 158 *) (
                Text 159 159 (
                Done)) (
                Text 161 161 (
                Done)) (
            Done)) (
            Done) Done) (
      Text 164 270 (
      Done))))))))))))))))))))) (
      Done) (
  Done).

(** amtl/am-cxx.h:1-104. *)
Definition h_cxx : code :=
  If (ENot (EDefined "_include_amtl_cxx_support_h_")) (* 29 *) (
      Define "_include_amtl_cxx_support_h_" (ENum 1) (* 30 *) (
      If (EDefined "__clang__") (* 32 *) (
          If (ENot (EAnd (EDefined "__clang_major__") (EDefined "__clang_minor__"))) (* 33 *) (
              Define "KE_CLANG_MAJOR" (ENum 1) (* 34 *) (
              Define "KE_CLANG_MINOR" (EMacro "__GNUC_MINOR__") (* 35 *) (
              Done))) (
              If (EAnd (EDefined "__apple_build_version__") (ELt (ENum 3) (EMacro "clang_major__"))) (* 37 *) (
                  If (EEq (EMacro "__clang_major__") (ENum 4)) (* 39 *) (
                      Define "KE_CLANG_MAJOR" (ENum 3) (* 40 *) (
                      If (EEq (EMacro "__clang_minor__") (ENum 0)) (* 41 *) (
                          Define "KE_CLANG_MINOR" (ENum 1) (* 42 *) (
                          Done)) (
                          Define "KE_CLANG_MINOR" (ENum 2) (* 44 *) (
                          Done)) (
                      Done))) (
                      If (EEq (EMacro "__clang_major__") (ENum 5)) (* 47 *) (
                        Define "KE_CLANG_MAJOR" (ENum 3) (* 48 *) (
                        If (EEq (EMacro "__clang_minor__") (ENum 0)) (* 49 *) (
                            Define "KE_CLANG_MINOR" (ENum 3) (* 50 *) (
                            Done)) (
                            Define "KE_CLANG_MINOR" (ENum 4) (* 52 *) (
                            Done)) (
                        Done))) (
                        If (EEq (EMacro "__clang_major__") (ENum 6)) (* 54 *) (
                          Define "KE_CLANG_MAJOR" (ENum 3) (* 55 *) (
                          Define "KE_CLANG_MINOR" (ENum 5) (* 56 *) (
                          Done))) (
                          Done) Done) Done) (
                  Done)) (
                  Done) (
              If (ENot (EDefined "KE_CLANG_MAJOR")) (* 59 *) (
                  Define "KE_CLANG_MAJOR" (EMacro "__clang_major__") (* 60 *) (
                  Done)) (
                  Done) (
              If (ENot (EDefined "KE_CLANG_MINOR")) (* 62 *) (
                  Define "KE_CLANG_MINOR" (EMacro "__clang_minor__") (* 63 *) (
                  Done)) (
                  Done) (
              Done)))) (
          Define "KE_CLANG_AT_LEAST" (ENum 1) (* 68 *) (
          If (ENot (EOr (ELt (ENum 3) (EMacro "__clang_major__")) (EAnd (EEq (EMacro "__clang_major__") (ENum 3)) (ELe (ENum 4) (EMacro "__clang_minor__"))))) (* 71 *) (
              Stop 72 (
              Done)) (
              Done) (
          Done)))) (
          If (EDefined "__GNUC__") (* 75 *) (
            Define "KE_GCC_AT_LEAST" (ENum 1) (* 76 *) (
            If (ENot (EOr (ELt (ENum 4) (EMacro "__GNUC__")) (EAnd (EEq (EMacro "__GNUC__") (ENum 4)) (ELe (ENum 9) (EMacro "__GNUC_MINOR__"))))) (* 78 *) (
                Stop 79 (
                Done)) (
                Done) (
            Done))) (
            If (EDefined "_MSC_VER") (* 82 *) (
              If (ELt (EMacro "_MSC_VER") (ENum 1900)) (* 83 *) (
                  Stop 84 (
                  Done)) (
                  Done) (
              Done)) (
              Stop 87 (
              Done)) Done) Done) (
      If (EDefined "_MSC_VER") (* 92 *) (
          Text 95 95 (* pragma *) (
          Done)) (
          Done) (
      If (EDefined "_MSC_VER") (* 98 *) (
          Define "KE_LINKONCE" (ENum 1) (* 99 *) (
          Done)) (
          Define "KE_LINKONCE" (ENum 1) (* 101 *) (
          Done)) (
      Done))))) (
      Done) (
  Done).

(** amtl/am-deque.h:1-49. *)
Definition h_deque : code :=
  Once (* 29 *) (
  System "deque" (* 31 *) (
  Text 33 49 (
  Done))).

(** amtl/am-enum.h:1-92. *)
Definition h_enum : code :=
  If (ENot (EDefined "_include_amtl_enum_h_")) (* 29 *) (
      Define "_include_amtl_enum_h_" (ENum 1) (* 30 *) (
      If (EDefined "KE_ALLOW_STD_CXX") (* 32 *) (
          System "type_traits" (* 33 *) (
          Done)) (
          Done) (
      Text 36 38 (
      If (EDefined "KE_ALLOW_STD_CXX") (* 39 *) (
          Text 40 40 (
          Done)) (
          Text 42 42 (
          Done)) (
      Text 44 45 (
      Define "KE_DEFINE_ENUM_OPERATORS" (ENum 1) (* 47 *) (
      Define "KE_DEFINE_ENUM_COMPARATORS" (ENum 1) (* 78 *) (
      Done)))))))) (
      Done) (
  Done).

(** amtl/am-fixedarray.h:1-179. *)
Definition h_fixedarray : code :=
  If (ENot (EDefined "_include_amtl_fixedarray_h_")) (* 29 *) (
      Define "_include_amtl_fixedarray_h_" (ENum 1) (* 30 *) (
      System "assert.h" (* 32 *) (
      System "vector" (* 34 *) (
      Include "am-allocator-policies.h" (* 36 *) (
      Text 38 177 (
      Done)))))) (
      Done) (
  Done).

(** amtl/am-flags.h:1-129. *)
Definition h_flags : code :=
  If (ENot (EDefined "_include_amtl_flags_h_")) (* 29 *) (
      Define "_include_amtl_flags_h_" (ENum 1) (* 30 *) (
      Include "am-enum.h" (* 32 *) (
      Text 34 127 (
      Done)))) (
      Done) (
  Done).

(** amtl/am-float.h:1-139. *)
Definition h_float : code :=
  If (ENot (EDefined "_include_amtl_float_h_")) (* 30 *) (
      Define "_include_amtl_float_h_" (ENum 1) (* 31 *) (
      System "stdint.h" (* 33 *) (
      System "cfloat" (* 35 *) (
      System "cmath" (* 36 *) (
      Text 38 87 (
      If (EDefined "_MSC_VER") (* 88 *) (
          Text 89 89 (
          Done)) (
          Text 91 91 (
          Done)) (
      Text 93 124 (
      If (EDefined "KE_WINDOWS") (* 125 *) (
          Text 129 131 (
          Done)) (
          Done) (
      Text 134 137 (
      Done)))))))))) (
      Done) (
  Done).

(** amtl/am-function.h:1-222. *)
Definition h_function : code :=
  If (ENot (EDefined "_include_amtl_function_h_")) (* 29 *) (
      Define "_include_amtl_function_h_" (ENum 1) (* 30 *) (
      System "assert.h" (* 32 *) (
      System "stddef.h" (* 33 *) (
      System "new" (* 35 *) (
      System "utility" (* 36 *) (
      Text 38 220 (
      Done))))))) (
      Done) (
  Done).

(** amtl/am-hashmap.h:1-188. *)
Definition h_hashmap : code :=
  If (ENot (EDefined "_include_amtl_hashmap_h_")) (* 30 *) (
      Define "_include_amtl_hashmap_h_" (ENum 1) (* 31 *) (
      System "utility" (* 33 *) (
      Include "am-hashtable.h" (* 35 *) (
      Text 37 186 (
      Done))))) (
      Done) (
  Done).

(** amtl/am-hashset.h:1-161. *)
Definition h_hashset : code :=
  If (ENot (EDefined "_include_amtl_hashset_h_")) (* 30 *) (
      Define "_include_amtl_hashset_h_" (ENum 1) (* 31 *) (
      System "utility" (* 33 *) (
      Include "am-hashtable.h" (* 35 *) (
      Text 37 159 (
      Done))))) (
      Done) (
  Done).

(** amtl/am-hashtable.h:1-658. *)
Definition h_hashtable : code :=
  If (ENot (EDefined "_INCLUDE_KEIMA_HASHTABLE_H_")) (* 30 *) (
      Define "_INCLUDE_KEIMA_HASHTABLE_H_" (ENum 1) (* 31 *) (
      System "limits.h" (* 33 *) (
      System "stdlib.h" (* 34 *) (
      System "new" (* 36 *) (
      System "utility" (* 37 *) (
      Include "am-allocator-policies.h" (* 39 *) (
      Include "am-bits.h" (* 40 *) (
      Text 42 656 (
      Done))))))))) (
      Done) (
  Done).

(** amtl/am-inlinelist.h:1-239. *)
Definition h_inlinelist : code :=
  If (ENot (EDefined "_include_amtl_inline_list_h_")) (* 30 *) (
      Define "_include_amtl_inline_list_h_" (ENum 1) (* 31 *) (
      Include "am-cxx.h" (* 33 *) (
      System "assert.h" (* 34 *) (
      System "stddef.h" (* 35 *) (
      Text 37 104 (
      If (ENot (EDefined "NDEBUG")) (* 105 *) (
          Text 107 108 (
          Done)) (
          Done) (
      Text 110 213 (
      If (ENot (EDefined "NDEBUG")) (* 215 *) (
          Text 216 217 (
          Done)) (
          Done) (
      Text 219 237 (
      Done)))))))))) (
      Done) (
  Done).

(** amtl/am-linking.h:1-45. *)
Definition h_linking : code :=
  If (ENot (EDefined "_include_amtl_linking_h_")) (* 30 *) (
      Define "_include_amtl_linking_h_" (ENum 1) (* 31 *) (
      Include "am-platform.h" (* 33 *) (
      If (EDefined "_MSC_VER") (* 35 *) (
          Define "KE_DLL_IMPORT" (ENum 1) (* 36 *) (
          Define "KE_DLL_EXPORT" (ENum 1) (* 37 *) (
          Define "KE_DLL_PRIVATE" (ENum 1) (* 38 *) (
          Done)))) (
          Define "KE_DLL_IMPORT" (ENum 1) (* 40 *) (
          Define "KE_DLL_EXPORT" (ENum 1) (* 41 *) (
          Define "KE_DLL_PRIVATE" (ENum 1) (* 42 *) (
          Done)))) (
      Done)))) (
      Done) (
  Done).

(** amtl/am-maybe.h:1-151. *)
Definition h_maybe : code :=
  If (ENot (EDefined "_include_amtl_maybe_h_")) (* 29 *) (
      Define "_include_amtl_maybe_h_" (ENum 1) (* 30 *) (
      System "assert.h" (* 32 *) (
      System "type_traits" (* 34 *) (
      System "utility" (* 35 *) (
      Include "am-storagebuffer.h" (* 37 *) (
      Text 39 149 (
      Done))))))) (
      Done) (
  Done).

(** amtl/am-mutex.h:1-65. *)
Definition h_mutex : code :=
  Once (* 30 *) (
  System "assert.h" (* 32 *) (
  System "mutex" (* 34 *) (
  System "thread" (* 35 *) (
  Text 37 42 (
  If (EDefined "NDEBUG") (* 43 *) (
      Text 44 44 (
      Done)) (
      Text 46 61 (
      Done)) (
  Text 63 65 (
  Done))))))).

(** amtl/am-platform.h:1-97. *)
Definition h_platform : code :=
  If (ENot (EDefined "_include_amtl_platform_h_")) (* 29 *) (
      Define "_include_amtl_platform_h_" (ENum 1) (* 30 *) (
      Text 32 32 (
      If (EDefined "__EMSCRIPTEN__") (* 34 *) (
          Define "KE_EMSCRIPTEN" (ENum 1) (* 35 *) (
          Define "KE_POSIX" (ENum 1) (* 36 *) (
          Done))) (
          If (EDefined "__NetBSD__") (* 37 *) (
            Define "KE_NETBSD" (ENum 1) (* 38 *) (
            Define "KE_BSD" (ENum 1) (* 39 *) (
            Done))) (
            If (EDefined "__FreeBSD__") (* 40 *) (
              Define "KE_FREEBSD" (ENum 1) (* 41 *) (
              Define "KE_BSD" (ENum 1) (* 42 *) (
              Done))) (
              If (EDefined "__OpenBSD__") (* 43 *) (
                Define "KE_OPENBSD" (ENum 1) (* 44 *) (
                Define "KE_BSD" (ENum 1) (* 45 *) (
                Done))) (
                If (EDefined "__APPLE__") (* 46 *) (
                  Define "KE_MACOSX" (ENum 1) (* 47 *) (
                  Define "KE_MACH" (ENum 1) (* 48 *) (
                  Define "KE_BSD" (ENum 1) (* 49 *) (
                  Done)))) (
                  If (EDefined "__MACH__") (* 50 *) (
                    Define "KE_MACH" (ENum 1) (* 51 *) (
                    Define "KE_BSD" (ENum 1) (* 52 *) (
                    Done))) (
                    If (EDefined "_WIN32") (* 53 *) (
                      Define "KE_WINDOWS" (ENum 1) (* 54 *) (
                      Done)) (
                      If (EDefined "__linux__") (* 55 *) (
                        Define "KE_LINUX" (ENum 1) (* 56 *) (
                        Define "KE_POSIX" (ENum 1) (* 57 *) (
                        Done))) (
                        If (EDefined "__sun__") (* 58 *) (
                          Define "KE_SOLARIS" (ENum 1) (* 59 *) (
                          Define "KE_POSIX" (ENum 1) (* 60 *) (
                          Done))) (
                          Done) Done) Done) Done) Done) Done) Done) Done) Done) (
      If (EDefined "KE_BSD") (* 63 *) (
          Define "KE_POSIX" (ENum 1) (* 64 *) (
          Done)) (
          Done) (
      If (EOr (EOr (EOr (EOr (EDefined "__x86_64") (EDefined "__x86_64__")) (EDefined "__amd64__")) (EDefined "__amd64")) (EAnd (EDefined "_MSC_VER") (EDefined "_M_X64"))) (* 67 *) (
          Define "KE_ARCH_X64" (ENum 1) (* 69 *) (
          Done)) (
          If (EOr (EOr (EOr (EOr (EOr (EDefined "__i686") (EDefined "__i686__")) (EDefined "__i386")) (EDefined "__i386__")) (EDefined "i386")) (EAnd (EDefined "_MSC_VER") (EDefined "_M_IX86"))) (* 70 *) (
            Define "KE_ARCH_X86" (ENum 1) (* 72 *) (
            Done)) (
            If (EOr (EDefined "__aarch64__") (EDefined "_M_ARM64")) (* 73 *) (
              Define "KE_ARCH_ARM64" (ENum 1) (* 74 *) (
              Done)) (
              If (EOr (EDefined "__arm__") (EDefined "_M_ARM")) (* 75 *) (
                Define "KE_ARCH_ARM" (ENum 1) (* 76 *) (
                Done)) (
                Define "KE_ARCH_UNKNOWN" (ENum 1) (* 78 *) (
                Done)) Done) Done) Done) (
      If (EDefined "__clang__") (* 83 *) (
          Define "KE_CXX_CLANG" (ENum 1) (* 84 *) (
          Done)) (
          If (EDefined "__GNUC__") (* 85 *) (
            Define "KE_CXX_GCC" (ENum 1) (* 86 *) (
            Done)) (
            If (EDefined "_MSC_VER") (* 87 *) (
              Define "KE_CXX_MSVC" (ENum 1) (* 88 *) (
              Done)) (
              Done) Done) Done) (
      If (EOr (EDefined "KE_CXX_CLANG") (EDefined "KE_CXX_GCC")) (* 91 *) (
          Define "KE_CXX_LIKE_GCC" (ENum 1) (* 92 *) (
          Done)) (
          Done) (
      Text 95 95 (
      Done))))))))) (
      Done) (
  Done).

(** amtl/am-priority-queue.h:1-168. *)
Definition h_priority_queue : code :=
  If (ENot (EDefined "_include_amtl_am_priority_queue_h_")) (* 30 *) (
      Define "_include_amtl_am_priority_queue_h_" (ENum 1) (* 31 *) (
      System "assert.h" (* 33 *) (
      System "algorithm" (* 35 *) (
      System "functional" (* 36 *) (
      System "utility" (* 37 *) (
      System "vector" (* 38 *) (
      Include "am-cxx.h" (* 40 *) (
      Text 42 137 (
      If (ELe (ENum 201402) (EMacro "__cplusplus")) (* 138 *) (
          Text 139 139 (
          Done)) (
          Done) (
      Text 141 166 (
      Done))))))))))) (
      Done) (
  Done).

(** amtl/am-raii.h:1-129. *)
Definition h_raii : code :=
  If (ENot (EDefined "_include_amtl_am_raii_h_")) (* 30 *) (
      Define "_include_amtl_am_raii_h_" (ENum 1) (* 31 *) (
      System "utility" (* 33 *) (
      Text 35 127 (
      Done)))) (
      Done) (
  Done).

(** amtl/am-refcounting-threadsafe.h:1-206. *)
Definition h_refcounting_threadsafe : code :=
  If (ENot (EDefined "_include_amtl_ts_refcounting_h_")) (* 30 *) (
      Define "_include_amtl_ts_refcounting_h_" (ENum 1) (* 31 *) (
      System "atomic" (* 33 *) (
      System "thread" (* 34 *) (
      Include "am-bits.h" (* 36 *) (
      Include "am-refcounting.h" (* 37 *) (
      Text 39 69 (
      Define "KE_IMPL_REFCOUNTING_TS" (ENum 1) (* 72 *) (
      Text 82 87 (
      If (ENot (EDefined "NDEBUG")) (* 88 *) (
          Text 89 89 (
          Done)) (
          Done) (
      Text 91 99 (
      If (ENot (EDefined "NDEBUG")) (* 100 *) (
          Text 101 101 (
          Done)) (
          Done) (
      Text 103 108 (
      If (ENot (EDefined "NDEBUG")) (* 109 *) (
          Text 110 110 (
          Done)) (
          Done) (
      Text 112 204 (
      Done))))))))))))))) (
      Done) (
  Done).

(** amtl/am-refcounting.h:1-323. *)
Definition h_refcounting : code :=
  If (ENot (EDefined "_include_amtl_refcounting_h_")) (* 30 *) (
      Define "_include_amtl_refcounting_h_" (ENum 1) (* 31 *) (
      System "assert.h" (* 33 *) (
      System "stddef.h" (* 34 *) (
      System "stdint.h" (* 35 *) (
      Include "am-raii.h" (* 37 *) (
      Text 39 136 (
      Define "KE_IMPL_REFCOUNTING" (ENum 1) (* 139 *) (
      Text 148 163 (
      If (ENot (EDefined "NDEBUG")) (* 164 *) (
          Text 165 165 (
          Done)) (
          Done) (
      Text 167 175 (
      If (ENot (EDefined "NDEBUG")) (* 176 *) (
          Text 177 177 (
          Done)) (
          Done) (
      Text 179 184 (
      If (ENot (EDefined "NDEBUG")) (* 185 *) (
          Text 186 186 (
          Done)) (
          Done) (
      Text 188 321 (
      Done))))))))))))))) (
      Done) (
  Done).

(** amtl/am-storagebuffer.h:1-59. *)
Definition h_storagebuffer : code :=
  If (ENot (EDefined "_include_amtl_storagebuffer_h_")) (* 30 *) (
      Define "_include_amtl_storagebuffer_h_" (ENum 1) (* 31 *) (
      System "stdint.h" (* 33 *) (
      Text 35 57 (
      Done)))) (
      Done) (
  Done).

(** amtl/am-string.h:1-367. *)
Definition h_string : code :=
  If (ENot (EDefined "_include_amtl_string_h_")) (* 30 *) (
      Define "_include_amtl_string_h_" (ENum 1) (* 31 *) (
      Define "__STDC_FORMAT_MACROS" (ENum 1) (* 33 *) (
      If (ENot (EDefined "KE_WINDOWS")) (* 34 *) (
          System "inttypes.h" (* 35 *) (
          Done)) (
          Done) (
      System "assert.h" (* 37 *) (
      System "ctype.h" (* 38 *) (
      System "stdarg.h" (* 39 *) (
      System "stdint.h" (* 40 *) (
      System "stdio.h" (* 41 *) (
      System "stdlib.h" (* 42 *) (
      System "string.h" (* 43 *) (
      If (ENot (EDefined "_MSC_VER")) (* 44 *) (
          System "strings.h" (* 45 *) (
          Done)) (
          Done) (
      System "memory" (* 48 *) (
      System "string" (* 49 *) (
      System "utility" (* 50 *) (
      Include "am-bits.h" (* 52 *) (
      Include "am-cxx.h" (* 53 *) (
      Include "am-platform.h" (* 54 *) (
      Include "am-vector.h" (* 55 *) (
      Text 57 57 (
      If (EDefined "__GNUC__") (* 59 *) (
          Define "KE_PRINTF_FUNCTION" (ENum 1) (* 60 *) (
          Done)) (
          Define "KE_PRINTF_FUNCTION" (ENum 1) (* 63 *) (
          Done)) (
      If (EDefined "_MSC_VER") (* 66 *) (
          Define "KE_VSNPRINTF" (ENum 1) (* 67 *) (
          Done)) (
          Define "KE_VSNPRINTF" (ENum 1) (* 69 *) (
          Done)) (
      Text 73 94 (
      If (EDefined "_MSC_VER") (* 96 *) (
          Text 97 97 (
          Done)) (
          Text 99 101 (
          Done)) (
      Text 104 247 (
      If (EDefined "_MSC_VER") (* 248 *) (
          Text 249 249 (
          Done)) (
          Text 251 251 (
          Done)) (
      Text 253 307 (
      If (ENot (EDefined "NDEBUG")) (* 308 *) (
          Text 309 309 (
          Done)) (
          Done) (
      Text 311 349 (
      If (EDefined "KE_WINDOWS") (* 351 *) (
          Define "KE_FMT_SIZET" (ENum 1) (* 352 *) (
          Define "KE_FMT_I64" (ENum 1) (* 353 *) (
          Define "KE_FMT_U64" (ENum 1) (* 354 *) (
          Define "KE_FMT_X64" (ENum 1) (* 355 *) (
          Done))))) (
          If (EDefined "KE_POSIX") (* 356 *) (
            Define "KE_FMT_SIZET" (ENum 1) (* 357 *) (
            Define "KE_FMT_I64" (ENum 1) (* 358 *) (
            Define "KE_FMT_U64" (ENum 1) (* 359 *) (
            Define "KE_FMT_X64" (ENum 1) (* 360 *) (
            Done))))) (
            Stop 362 (
            Done)) Done) (
      Text 365 365 (
      Done))))))))))))))))))))))))))))))) (
      Done) (
  Done).

(** amtl/am-thread.h:1-113. *)
Definition h_thread : code :=
  Once (* 30 *) (
  System "functional" (* 32 *) (
  System "memory" (* 33 *) (
  System "string" (* 34 *) (
  System "thread" (* 35 *) (
  Include "am-platform.h" (* 37 *) (
  If (EDefined "KE_POSIX") (* 39 *) (
      System "pthread.h" (* 40 *) (
      Done)) (
      If (EDefined "KE_WINDOWS") (* 41 *) (
        System "codecvt" (* 42 *) (
        System "locale" (* 43 *) (
        System "string" (* 44 *) (
        System "Windows.h" (* 46 *) (
        System "processthreadsapi.h" (* 47 *) (
        System "sdkddkver.h" (* 48 *) (
        Done))))))) (
        Done) Done) (
  Text 51 53 (
  If (EDefined "KE_WINDOWS") (* 55 *) (
      Text 56 71 (
      Done)) (
      Done) (
  Text 74 76 (
  If (EDefined "KE_MACOSX") (* 77 *) (
      Text 78 78 (
      Done)) (
      If (EDefined "KE_POSIX") (* 79 *) (
        Text 80 80 (
        Done)) (
        If (EDefined "KE_WINDOWS") (* 81 *) (
          Text 82 82 (
          Done)) (
          Text 84 84 (
          Done)) Done) Done) (
  Text 86 88 (
  If (EAnd (EDefined "KE_POSIX") (ENot (EDefined "KE_MACOSX"))) (* 89 *) (
      Text 90 90 (
      Done)) (
      If (EDefined "KE_WINDOWS") (* 91 *) (
        Text 92 92 (
        Done)) (
        Text 94 95 (
        Done)) Done) (
  Text 97 112 (
  Done)))))))))))))).

(** amtl/am-threadlocal.h:1-185. *)
Definition h_threadlocal : code :=
  If (ENot (EDefined "_include_amtl_thread_local_h_")) (* 30 *) (
      Define "_include_amtl_thread_local_h_" (ENum 1) (* 31 *) (
      Include "am-utility.h" (* 33 *) (
      System "stddef.h" (* 34 *) (
      System "stdint.h" (* 35 *) (
      System "stdio.h" (* 36 *) (
      System "stdlib.h" (* 37 *) (
      If (EDefined "_WIN32") (* 39 *) (
          System "windows.h" (* 40 *) (
          Done)) (
          System "pthread.h" (* 42 *) (
          Done)) (
      Text 45 91 (
      If (ENot (EDefined "KE_SINGLE_THREADED")) (* 93 *) (
          Text 94 113 (
          If (EDefined "_MSC_VER") (* 115 *) (
              Text 116 135 (
              Done)) (
              Text 138 158 (
              Done)) (
          Done))) (
          Text 162 179 (
          Done)) (
      Text 181 183 (
      Done))))))))))) (
      Done) (
  Done).

(** amtl/am-time.h:1-82. *)
Definition h_time : code :=
  Once (* 29 *) (
  If (ELe (ENum 201703) (EMacro "__cplusplus")) (* 32 *) (
      System "limits.h" (* 34 *) (
      System "time.h" (* 35 *) (
      System "chrono" (* 37 *) (
      System "iomanip" (* 38 *) (
      System "sstream" (* 39 *) (
      System "string" (* 40 *) (
      Text 42 80 (
      Done)))))))) (
      Done) (
  Done)).

(** amtl/am-unused.h:1-48. *)
Definition h_unused : code :=
  If (ENot (EDefined "_include_amtl_unused_")) (* 30 *) (
      Define "_include_amtl_unused_" (ENum 1) (* 31 *) (
      Text 33 46 (
      Done))) (
      Done) (
  Done).

(** amtl/am-utility.h:1-83. *)
Definition h_utility : code :=
  If (ENot (EDefined "_include_amtl_utility_h_")) (* 30 *) (
      Define "_include_amtl_utility_h_" (ENum 1) (* 31 *) (
      Define "__STDC_FORMAT_MACROS" (ENum 1) (* 33 *) (
      System "assert.h" (* 34 *) (
      System "stddef.h" (* 35 *) (
      System "stdint.h" (* 36 *) (
      System "stdlib.h" (* 37 *) (
      Include "am-cxx.h" (* 39 *) (
      If (EDefined "_MSC_VER") (* 41 *) (
          Text 43 43 (* pragma *) (
          Done)) (
          Done) (
      Text 46 53 (
      Define "ARRAY_LENGTH" (ENum 1) (* 55 *) (
      Define "IS_ALIGNED" (ENum 1) (* 56 *) (
      If (EDefined "__GNUC__") (* 58 *) (
          Define "KE_CRITICAL_LIKELY" (ENum 1) (* 59 *) (
          Done)) (
          Define "KE_CRITICAL_LIKELY" (ENum 1) (* 61 *) (
          Done)) (
      Text 64 81 (
      Done)))))))))))))) (
      Done) (
  Done).

(** amtl/am-vector.h:1-83. *)
Definition h_vector : code :=
  Once (* 30 *) (
  System "stddef.h" (* 32 *) (
  System "algorithm" (* 34 *) (
  System "vector" (* 35 *) (
  Text 37 83 (
  Done))))).

(** amtl/experimental/am-argparser.h:1-1047. *)
Definition h_experimental_argparser : code :=
  If (ENot (EDefined "_include_amtl_am_argparser_h_")) (* 29 *) (
      Define "_include_amtl_am_argparser_h_" (ENum 1) (* 30 *) (
      System "assert.h" (* 32 *) (
      System "stdio.h" (* 33 *) (
      System "algorithm" (* 35 *) (
      System "memory" (* 36 *) (
      System "string" (* 37 *) (
      Include "am-cxx.h" (* 39 *) (
      Include "am-function.h" (* 40 *) (
      Include "am-maybe.h" (* 41 *) (
      Include "am-string.h" (* 42 *) (
      Include "am-vector.h" (* 43 *) (
      Text 45 1045 (
      Done))))))))))))) (
      Done) (
  Done).

(** amtl/os/am-fsutil-posix.h:1-68. *)
Definition h_os_fsutil_posix : code :=
  If (ENot (EDefined "_include_amtl_os_fsutil_posix_h_")) (* 29 *) (
      Define "_include_amtl_os_fsutil_posix_h_" (ENum 1) (* 30 *) (
      System "sys/stat.h" (* 32 *) (
      System "sys/types.h" (* 33 *) (
      Text 35 66 (
      Done))))) (
      Done) (
  Done).

(** amtl/os/am-fsutil-windows.h:1-70. *)
Definition h_os_fsutil_windows : code :=
  If (ENot (EDefined "_include_amtl_os_fsutil_windows_h_")) (* 29 *) (
      Define "_include_amtl_os_fsutil_windows_h_" (ENum 1) (* 30 *) (
      Define "WIN32_LEAN_AND_MEAN" (ENum 1) (* 32 *) (
      System "Windows.h" (* 33 *) (
      System "direct.h" (* 34 *) (
      Text 36 68 (
      Done)))))) (
      Done) (
  Done).

(** amtl/os/am-fsutil.h:1-44. *)
Definition h_os_fsutil : code :=
  If (ENot (EDefined "_include_amtl_os_fsutil_h_")) (* 29 *) (
      Define "_include_amtl_os_fsutil_h_" (ENum 1) (* 30 *) (
      Include "am-platform.h" (* 32 *) (
      Include "am-string.h" (* 33 *) (
      If (EDefined "KE_WINDOWS") (* 34 *) (
          Include "os/am-fsutil-windows.h" (* 35 *) (
          Done)) (
          Include "os/am-fsutil-posix.h" (* 37 *) (
          Done)) (
      Text 40 42 (
      Done)))))) (
      Done) (
  Done).

(** amtl/os/am-path.h:1-67. *)
Definition h_os_path : code :=
  If (ENot (EDefined "_include_amtl_os_path_h_")) (* 29 *) (
      Define "_include_amtl_os_path_h_" (ENum 1) (* 30 *) (
      Include "am-platform.h" (* 32 *) (
      Include "am-string.h" (* 33 *) (
      Text 35 42 (
      If (EDefined "KE_WINDOWS") (* 43 *) (
          Text 44 45 (
          Done)) (
          Text 47 48 (
          Done)) (
      Text 50 65 (
      Done))))))) (
      Done) (
  Done).

(** amtl/os/am-shared-library.h:1-121. *)
Definition h_os_shared_library : code :=
  If (ENot (EDefined "_include_amtl_os_sharedlib_h_")) (* 29 *) (
      Define "_include_amtl_os_sharedlib_h_" (ENum 1) (* 30 *) (
      Include "am-platform.h" (* 32 *) (
      Include "am-refcounting.h" (* 33 *) (
      If (EDefined "KE_WINDOWS") (* 34 *) (
          Define "WIN32_LEAN_AND_MEAN" (ENum 1) (* 35 *) (
          System "Windows.h" (* 36 *) (
          Include "os/am-system-errors.h" (* 37 *) (
          Done)))) (
          Include "am-string.h" (* 39 *) (
          System "dlfcn.h" (* 40 *) (
          Done))) (
      Text 43 46 (
      If (EDefined "KE_WINDOWS") (* 47 *) (
          Text 48 48 (
          Done)) (
          Text 50 50 (
          Done)) (
      Text 53 60 (
      If (EDefined "KE_WINDOWS") (* 61 *) (
          Text 62 62 (
          Done)) (
          Text 64 64 (
          Done)) (
      Text 66 69 (
      If (EDefined "KE_WINDOWS") (* 71 *) (
          Text 72 72 (
          Done)) (
          Text 74 74 (
          Done)) (
      Text 76 87 (
      If (EDefined "KE_WINDOWS") (* 88 *) (
          Text 89 89 (
          Done)) (
          Text 91 91 (
          Done)) (
      Text 93 98 (
      If (EDefined "KE_WINDOWS") (* 99 *) (
          Text 100 100 (
          Done)) (
          Text 102 102 (
          Done)) (
      Text 104 119 (
      Done)))))))))))))))) (
      Done) (
  Done).

(** amtl/os/am-system-errors.h:1-71. *)
Definition h_os_system_errors : code :=
  If (ENot (EDefined "_include_amtl_os_system_errors_h_")) (* 29 *) (
      Define "_include_amtl_os_system_errors_h_" (ENum 1) (* 30 *) (
      If (EDefined "KE_WINDOWS") (* 32 *) (
          Define "WIN32_LEAN_AND_MEAN" (ENum 1) (* 33 *) (
          System "Windows.h" (* 34 *) (
          Done))) (
          System "errno.h" (* 36 *) (
          Done)) (
      Include "am-string.h" (* 38 *) (
      System "string.h" (* 39 *) (
      Text 41 44 (
      If (EDefined "KE_WINDOWS") (* 45 *) (
          Text 46 50 (
          Done)) (
          If (EAnd (EDefined "KE_LINUX") (EDefined "__GLIBC__")) (* 51 *) (
            Text 52 54 (
            Done)) (
            Text 56 56 (
            Done)) Done) (
      Text 58 61 (
      If (EDefined "KE_WINDOWS") (* 62 *) (
          Text 63 63 (
          Done)) (
          Text 65 65 (
          Done)) (
      Text 67 69 (
      Done)))))))))) (
      Done) (
  Done).

(** The files of the include directory (amtl/am-platform.h:1-97 and the others). *)
Definition headers (f : string) : option code :=
  if String.eqb f "am-allocator-policies.h" then Some h_allocator_policies else
  if String.eqb f "am-arithmetic.h" then Some h_arithmetic else
  if String.eqb f "am-assert.h" then Some h_assert else
  if String.eqb f "am-bits.h" then Some h_bits else
  if String.eqb f "am-cxx.h" then Some h_cxx else
  if String.eqb f "am-deque.h" then Some h_deque else
  if String.eqb f "am-enum.h" then Some h_enum else
  if String.eqb f "am-fixedarray.h" then Some h_fixedarray else
  if String.eqb f "am-flags.h" then Some h_flags else
  if String.eqb f "am-float.h" then Some h_float else
  if String.eqb f "am-function.h" then Some h_function else
  if String.eqb f "am-hashmap.h" then Some h_hashmap else
  if String.eqb f "am-hashset.h" then Some h_hashset else
  if String.eqb f "am-hashtable.h" then Some h_hashtable else
  if String.eqb f "am-inlinelist.h" then Some h_inlinelist else
  if String.eqb f "am-linking.h" then Some h_linking else
  if String.eqb f "am-maybe.h" then Some h_maybe else
  if String.eqb f "am-mutex.h" then Some h_mutex else
  if String.eqb f "am-platform.h" then Some h_platform else
  if String.eqb f "am-priority-queue.h" then Some h_priority_queue else
  if String.eqb f "am-raii.h" then Some h_raii else
  if String.eqb f "am-refcounting-threadsafe.h" then Some h_refcounting_threadsafe else
  if String.eqb f "am-refcounting.h" then Some h_refcounting else
  if String.eqb f "am-storagebuffer.h" then Some h_storagebuffer else
  if String.eqb f "am-string.h" then Some h_string else
  if String.eqb f "am-thread.h" then Some h_thread else
  if String.eqb f "am-threadlocal.h" then Some h_threadlocal else
  if String.eqb f "am-time.h" then Some h_time else
  if String.eqb f "am-unused.h" then Some h_unused else
  if String.eqb f "am-utility.h" then Some h_utility else
  if String.eqb f "am-vector.h" then Some h_vector else
  if String.eqb f "experimental/am-argparser.h" then Some h_experimental_argparser else
  if String.eqb f "os/am-fsutil-posix.h" then Some h_os_fsutil_posix else
  if String.eqb f "os/am-fsutil-windows.h" then Some h_os_fsutil_windows else
  if String.eqb f "os/am-fsutil.h" then Some h_os_fsutil else
  if String.eqb f "os/am-path.h" then Some h_os_path else
  if String.eqb f "os/am-shared-library.h" then Some h_os_shared_library else
  if String.eqb f "os/am-system-errors.h" then Some h_os_system_errors else
  None.
