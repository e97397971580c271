(** Model of the C++ preprocessor, as far as the headers of /repo/amtl use it; the headers themselves are in HeadersModel.
    A translation unit is processed in a fixed environment of predefined macros (compiler, platform, command line).
    Simplifications: the headers of the system define none of the macros the headers of amtl test (__GLIBC__ counts as
    predefined) and are recorded by name only; macros in program text are not expanded; nothing is undefined by #undef
    (no header does). *)
From Coq Require Import String ZArith.
From Verif Require Import Base.
Local Open Scope string_scope.
Local Open Scope Z_scope.

(** The expressions of #if and #elif (for instance am-cxx.h:37, 69, 76; am-platform.h:67-72). *)
Inductive expr :=
| ENum (z : Z) | EMacro (m : string) | EDefined (m : string)
| ENot (a : expr) | EAnd (a b : expr) | EOr (a b : expr) | EEq (a b : expr) | ELt (a b : expr) | ELe (a b : expr).
(** A header: text and directives in the order of the file, each followed by the rest (for instance am-platform.h:29-97). *)
Inductive code :=
| Done
| Text (first last : Z) (k : code)
| Define (m : string) (v : expr) (k : code)
| Include (f : string) (k : code)                  (* a header of amtl *)
| System (f : string) (k : code)                   (* any other header *)
| Once (k : code)                                  (* #pragma once *)
| Stop (line : Z) (k : code)                       (* #error *)
| If (c : expr) (t e : code) (k : code).

(** What the compiler proper gets to see (for instance the lines am-float.h:38-125, <cmath> of am-float.h:36). *)
Inductive item := Lines (f : string) (first last : Z) | Sys (f s : string).
(** Macros defined so far by directives, files marked by #pragma once (am-vector.h:30), output in order. *)
Record pp := PP { macros : list (string * Z); onces : list string; out : list item }.
(** Fine: processed; Rejected f n: the #error in line n of f; Deep: includes nested too deeply; NoFile.  am-cxx.h:72-87. *)
Inductive res := Fine (s : pp) | Rejected (f : string) (line : Z) | Deep | NoFile (f : string).

(** Predefined macros: from the compiler and its command line (am-platform.h:34-91 tests them). *)
Definition predefined := string -> option Z.

Section PP.
Variable B : predefined.
Fixpoint assoc (m : string) (l : list (string * Z)) : option Z :=
  match l with [] => None | (k, v) :: l => if String.eqb m k then Some v else assoc m l end.
(** The definition of a macro now: by a directive seen so far, else predefined. *)
Definition value (s : pp) (m : string) : option Z :=
  match assoc m (macros s) with Some v => Some v | None => B m end.
(** Evaluation of #if conditions: names that are no macros are 0, as clang_major__ of am-cxx.h:37. *)
Definition truth (b : bool) : Z := if b then 1 else 0.
Fixpoint eval (s : pp) (e : expr) : Z :=
  match e with
  | ENum z => z
  | EMacro m => match value s m with Some v => v | None => 0 end
  | EDefined m => truth (match value s m with Some _ => true | None => false end)
  | ENot a => truth (eval s a =? 0)
  | EAnd a b => truth (negb (eval s a =? 0) && negb (eval s b =? 0))
  | EOr a b => truth (negb (eval s a =? 0) || negb (eval s b =? 0))
  | EEq a b => truth (eval s a =? eval s b)
  | ELt a b => truth (eval s a <? eval s b)
  | ELe a b => truth (eval s a <=? eval s b)
  end.

Definition add_macro (s : pp) (m : string) (v : Z) : pp := PP ((m, v) :: macros s) (onces s) (out s).
Definition add_item (s : pp) (i : item) : pp := PP (macros s) (onces s) (out s ++ [i]).
Definition add_once (s : pp) (f : string) : pp := PP (macros s) (f :: onces s) (out s).

(** The directives of one file, [inc] processing included files (for instance am-float.h:30-139). *)
Section Code.
Variable inc : string -> pp -> res.
Variable f : string.
Fixpoint process (k : code) (s : pp) : res :=
  match k with
  | Done => Fine s
  | Text a b k => process k (add_item s (Lines f a b))
  | Define m v k => process k (add_macro s m (eval s v))
  | Include g k => match inc g s with Fine s => process k s | r => r end
  | System g k => process k (add_item s (Sys f g))
  | Once k => process k (add_once s f)
  | Stop n _ => Rejected f n
  | If c t e k => match process (if eval s c =? 0 then e else t) s with Fine s => process k s | r => r end
  end.
End Code.

(** #include of a file of amtl, at most [depth] levels deep (for instance am-hashtable.h:39-40). *)
Variable files : string -> option code.
Fixpoint include (depth : nat) (f : string) (s : pp) : res :=
  match depth with
  | O => Deep
  | S depth => if existsb (String.eqb f) (onces s) then Fine s
               else match files f with
                    | None => NoFile f
                    | Some k => process (include depth) f k s
                    end
  end.
(** A client's translation unit that includes these headers one after the other (as tests/test-string.cpp:28-36).  The nesting
    limit is the one compilers must at least support. *)
Definition limit : nat := 256.
Fixpoint includes (hs : list string) (s : pp) : res :=
  match hs with
  | [] => Fine s
  | f :: hs => match include limit f s with Fine s => includes hs s | r => r end
  end.
Definition translate (hs : list string) : res := includes hs (PP [] [] []).
End PP.
