(** What the headers of amtl should give to a client, in terms of what reaches the compiler. *)
From Coq Require Import String ZArith.
From Verif Require Import Base PreprocModel HeadersModel.
Local Open Scope string_scope.
Local Open Scope Z_scope.

(** The part of the output that comes from one file: its text and the system headers it includes. *)
Definition from_file (f : string) (i : item) : bool := match i with Lines g _ _ | Sys g _ => String.eqb f g end.
Definition provided (f : string) (s : pp) : list item := filter (from_file f) (out s).

(** The macros a file may define, anywhere in it. *)
Fixpoint defined_by (k : code) : list string :=
  match k with
  | Done => []
  | Define m _ k => m :: defined_by k
  | Text _ _ k | Include _ k | System _ k | Once k | Stop _ k => defined_by k
  | If c t e k => (defined_by t ++ defined_by e ++ defined_by k)%list
  end.
(** Names that belong to amtl: include guards and the KE_ macros it defines.  A client's environment leaves them alone. *)
Definition reserved (m : string) : Prop :=
  (exists f k, headers f = Some k /\ In m (defined_by k)) /\ m <> "WIN32_LEAN_AND_MEAN" /\ m <> "__STDC_FORMAT_MACROS".
Definition environment (B : predefined) : Prop := forall m, reserved m -> B m = None.
Definition header (f : string) : Prop := exists k, headers f = Some k.
Definition defd (B : predefined) (m : string) : bool := match B m with Some _ => true | None => false end.

(** Operating systems by the macros of their compilers, in the order in which they are told apart. *)
Inductive os := Emscripten | NetBSD | FreeBSD | OpenBSD | MacOS | Mach | Windows | Linux | Solaris | OtherOS.
Definition os_of (B : predefined) : os :=
  if defd B "__EMSCRIPTEN__" then Emscripten else if defd B "__NetBSD__" then NetBSD
  else if defd B "__FreeBSD__" then FreeBSD else if defd B "__OpenBSD__" then OpenBSD
  else if defd B "__APPLE__" then MacOS else if defd B "__MACH__" then Mach
  else if defd B "_WIN32" then Windows else if defd B "__linux__" then Linux
  else if defd B "__sun__" then Solaris else OtherOS.
(** The macro that names each of them, and the two families. *)
Definition os_macros (o : os) : list string :=
  match o with
  | Emscripten => ["KE_EMSCRIPTEN"; "KE_POSIX"] | NetBSD => ["KE_NETBSD"; "KE_BSD"; "KE_POSIX"]
  | FreeBSD => ["KE_FREEBSD"; "KE_BSD"; "KE_POSIX"] | OpenBSD => ["KE_OPENBSD"; "KE_BSD"; "KE_POSIX"]
  | MacOS => ["KE_MACOSX"; "KE_MACH"; "KE_BSD"; "KE_POSIX"] | Mach => ["KE_MACH"; "KE_BSD"; "KE_POSIX"]
  | Windows => ["KE_WINDOWS"] | Linux => ["KE_LINUX"; "KE_POSIX"] | Solaris => ["KE_SOLARIS"; "KE_POSIX"] | OtherOS => []
  end.
Definition all_os_macros : list string :=
  ["KE_EMSCRIPTEN"; "KE_NETBSD"; "KE_FREEBSD"; "KE_OPENBSD"; "KE_MACOSX"; "KE_MACH"; "KE_BSD"; "KE_WINDOWS"; "KE_LINUX";
   "KE_SOLARIS"; "KE_POSIX"].
Definition any (B : predefined) (l : list string) : bool := existsb (defd B) l.
Definition arch_macro (B : predefined) : string :=
  if any B ["__x86_64"; "__x86_64__"; "__amd64__"; "__amd64"] || (defd B "_MSC_VER" && defd B "_M_X64") then "KE_ARCH_X64"
  else if any B ["__i686"; "__i686__"; "__i386"; "__i386__"; "i386"] || (defd B "_MSC_VER" && defd B "_M_IX86") then "KE_ARCH_X86"
  else if any B ["__aarch64__"; "_M_ARM64"] then "KE_ARCH_ARM64"
  else if any B ["__arm__"; "_M_ARM"] then "KE_ARCH_ARM" else "KE_ARCH_UNKNOWN".
Definition arch_macros : list string := ["KE_ARCH_X64"; "KE_ARCH_X86"; "KE_ARCH_ARM64"; "KE_ARCH_ARM"; "KE_ARCH_UNKNOWN"].
(** Compilers. *)
Inductive cxx := Clang | Gcc | Msvc | OtherCxx.
Definition cxx_of (B : predefined) : cxx :=
  if defd B "__clang__" then Clang else if defd B "__GNUC__" then Gcc else if defd B "_MSC_VER" then Msvc else OtherCxx.
Definition cxx_macro (c : cxx) : list string :=
  match c with
  | Clang => ["KE_CXX_CLANG"; "KE_CXX_LIKE_GCC"] | Gcc => ["KE_CXX_GCC"; "KE_CXX_LIKE_GCC"] | Msvc => ["KE_CXX_MSVC"]
  | OtherCxx => []
  end.
Definition cxx_macros : list string := ["KE_CXX_CLANG"; "KE_CXX_GCC"; "KE_CXX_MSVC"; "KE_CXX_LIKE_GCC"].
(** A macro is defined at the end of the translation unit. *)
Definition has (B : predefined) (s : pp) (m : string) : Prop := value B s m <> None.

(** The oldest compilers amtl says it supports: clang 3.4, GCC 4.9, Visual Studio 2015 (_MSC_VER 1900). *)
Definition version (B : predefined) (m : string) : Z := match B m with Some v => v | None => 0 end.
Definition at_least (major minor x y : Z) : bool := (x <? major) || ((major =? x) && (y <=? minor)).
Definition supported (B : predefined) (clang_major clang_minor : Z) : bool :=
  match cxx_of B with
  | Clang => at_least clang_major clang_minor 3 4
  | Gcc => at_least (version B "__GNUC__") (version B "__GNUC_MINOR__") 4 9
  | Msvc => 1900 <=? version B "_MSC_VER"
  | OtherCxx => false
  end.
(** The release of clang behind Apple's numbers, as am-cxx.h:38-57 says: 4.0 is 3.1, 4.1 is 3.2, 5.0 is 3.3, 5.1 is 3.4 and
    6 is 3.5. *)
Definition apple_release (major minor : Z) : Z * Z :=
  if major =? 4 then (3, if minor =? 0 then 1 else 2) else if major =? 5 then (3, if minor =? 0 then 3 else 4)
  else if major =? 6 then (3, 5) else (major, minor).

(** A header contributes to a translation unit exactly what it contributes when it is the only one included: the same text and
    system headers, and the same definitions of the macros it defines. *)
Definition as_if_alone (B : predefined) (h : string) (s : pp) : Prop :=
  exists k s1, headers h = Some k /\ translate B headers [h] = Fine s1 /\ provided h s = provided h s1 /\
    forall m, In m (defined_by k) -> reserved m -> value B s m = value B s1 m.
(** An environment that defines just these macros. *)
Definition just (l : list (string * Z)) : predefined := fun m => assoc m l.
Definition gcc_linux : predefined :=
  just [("__linux__", 1); ("__GNUC__", 12); ("__GNUC_MINOR__", 2); ("__x86_64__", 1); ("__LP64__", 1); ("__cplusplus", 201703);
        ("__GLIBC__", 2)].
Definition msvc : predefined := just [("_WIN32", 1); ("_MSC_VER", 1930); ("_M_X64", 1); ("__cplusplus", 201703)].
(** Apple's clang 4.0. *)
Definition apple_clang_4 : predefined :=
  just [("__APPLE__", 1); ("__MACH__", 1); ("__GNUC__", 4); ("__GNUC_MINOR__", 2); ("__clang__", 1); ("__clang_major__", 4);
        ("__clang_minor__", 0); ("__apple_build_version__", 4210000); ("__x86_64__", 1); ("__cplusplus", 201103)].
