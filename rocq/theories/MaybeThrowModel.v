(** Model of amtl/am-maybe.h when T's constructors may throw.

    The headers do not require -fno-exceptions of the code that includes them (only amtl's own AMBuildScript
    sets it), so a client's T may throw.  [throws k] says whether the k-th attempt to construct a T throws; every
    statement of the client program is inside its own try/catch, so that the program continues after a throw.
    T's destructor does not throw and no constructor touches another variable.
    Storage is a raw buffer or holds a constructed T; its value is [None] once it was moved from (or while a
    throwing move constructor may have touched it).  [lost] counts constructed Ts whose storage was reused or went
    away without their destructor being run. *)
From Verif Require Import Base.

Section MaybeThrow.
Variable V : Type.
Variable debug : bool.
Variable throws : nat -> bool.

(** Names of Maybe variables of a client program (am-maybe.h:43-138). *)
Definition var := nat.

(** am-maybe.h:136-137 initialized_ and t_. *)
Record cell := Cell { initialized : bool; storage : option (option V) }.

(** The program's variables (am-maybe.h:43-138), the attempts to construct a T so far and the Ts that can no
    longer be destroyed. *)
Record state := State { vars : var -> option cell; attempts : nat; lost : nat }.
Definition empty_state : state := State (fun _ => None) 0 0.

(** Whether a statement completed or left with an exception, and what it yielded. *)
Inductive result := Done | Val (x : option V) | IsB (b : bool) | Threw.

(** Storage for the members (am-maybe.h:136-137) of one variable. *)
Definition set_var (s : state) (v : var) (c : option cell) : state :=
  State (fun u => if u =? v then c else vars s u) (attempts s) (lost s).

(** Naming a variable (am-maybe.h:43-138) that exists. *)
Definition get_cell (s : state) (v : var) : outcome cell :=
  match vars s v with Some c => Ok c | None => Fault UseAfterFree end.

(** t_.address()->~T() (am-maybe.h:66, 72): destroying what is not a constructed T is the fault. *)
Definition destroy_T (s : state) (v : var) : outcome state :=
  do c <- get_cell s v;
  match storage c with
  | None => Fault DoubleFree
  | Some _ => Ok (set_var s v (Some (Cell (initialized c) None)))
  end.

(** new (t_.address()) T(x) (am-maybe.h:74): the second component is true when T's constructor returned.  A throwing
    constructor leaves the storage raw; a T that was still in the storage is lost either way. *)
Definition construct_T (s : state) (v : var) (x : option V) : outcome (state * bool) :=
  do c <- get_cell s v;
  let n := attempts s in
  let l := match storage c with Some _ => S (lost s) | None => lost s end in
  let ok := negb (throws n) in
  let s := set_var s v (Some (Cell (initialized c) (if ok then Some x else None))) in
  Ok (State (vars s) (S n) l, ok).

(** initialized_ = b (am-maybe.h:48, 51, 56, 61, 75, 112, 117, 131). *)
Definition set_init (s : state) (v : var) (b : bool) : outcome state :=
  do c <- get_cell s v; Ok (set_var s v (Some (Cell b (storage c)))).

(** Reading the T (am-maybe.h:88, 96, 100, 104, 125, 130). *)
Definition read_T (s : state) (v : var) : outcome (option V) :=
  do c <- get_cell s v; match storage c with None => Fault Uninit | Some x => Ok x end.

(** What T's move constructor does to its source (am-maybe.h:130); a throwing one may have done it too. *)
Definition take_T (s : state) (v : var) : outcome (state * option V) :=
  do x <- read_T s v;
  do c <- get_cell s v;
  Ok (set_var s v (Some (Cell (initialized c) (Some None))), x).

(** am-maybe.h:69-76 init(argv...); false when T's constructor threw at :74, which skips :75. *)
Definition init_with (s : state) (v : var) (arg : state -> outcome (state * option V)) : outcome (state * bool) :=
  do c <- get_cell s v;
  do s <- (if initialized c then destroy_T s v else Ok s);
  do (s, x) <- arg s;
  do (s, ok) <- construct_T s v x;
  if ok then do s <- set_init s v true; Ok (s, true) else Ok (s, false).

(** am-maybe.h:123-127 copyFrom. *)
Definition copy_from (s : state) (v w : var) : outcome (state * bool) :=
  do c <- get_cell s w;
  if initialized c then init_with s v (fun s => do x <- read_T s w; Ok (s, x)) else Ok (s, true).

(** am-maybe.h:128-133 moveFrom: a throw at :130 skips :131. *)
Definition move_from (s : state) (v w : var) : outcome (state * bool) :=
  do c <- get_cell s w;
  if initialized c
  then do (s, ok) <- init_with s v (fun s => take_T s w);
       if ok then do s <- set_init s w false; Ok (s, true) else Ok (s, false)
  else Ok (s, true).

(** The variable's storage goes away: a T still in it is lost (the implicit destruction of am-maybe.h:136-137). *)
Definition discard (s : state) (v : var) : outcome state :=
  do c <- get_cell s v;
  let s' := set_var s v None in
  Ok (State (vars s') (attempts s') (match storage c with Some _ => S (lost s) | None => lost s end)).

(** A constructor's member initializer (am-maybe.h:47-62); the variable must be new. *)
Definition declare (s : state) (v : var) : outcome state :=
  match vars s v with Some _ => Fault BadArg | None => Ok (set_var s v (Some (Cell false None))) end.

(** A constructor that throws: ~Maybe does not run (am-maybe.h:50-59), the members go away. *)
Definition finish_ctor (v : var) (r : outcome (state * bool)) : outcome (state * result) :=
  do (s, ok) <- r;
  if ok then Ok (s, Done) else do s <- discard s v; Ok (s, Threw).

(** A member function that throws leaves the object to its owner (am-maybe.h:69-76, 111-120). *)
Definition finish (r : outcome (state * bool)) : outcome (state * result) :=
  do (s, ok) <- r; Ok (s, if ok then Done else Threw).

(** am-maybe.h:64-67 ~Maybe. *)
Definition dtor (s : state) (v : var) : outcome state :=
  do c <- get_cell s v;
  do s <- (if initialized c then destroy_T s v else Ok s);
  discard s v.

(** Statements of a client program, each inside try/catch. *)
Inductive op :=
| New (v : var)                  (* am-maybe.h:47-49, 60-62 *)
| CopyCtor (v w : var)           (* am-maybe.h:50-54 *)
| MoveCtor (v w : var)           (* am-maybe.h:55-59 *)
| SomeCtor (v : var) (x : V)     (* am-maybe.h:140-147, the copy of the result elided *)
| Init (v : var) (x : V)         (* am-maybe.h:69-76 *)
| Assign (v w : var)             (* am-maybe.h:111-115 *)
| AssignMove (v w : var)         (* am-maybe.h:116-120 *)
| Get (v : var)                  (* am-maybe.h:86-105 *)
| IsValid (v : var)              (* am-maybe.h:78-80, 107-109 *)
| Destroy (v : var).             (* am-maybe.h:64-67 *)

(** One statement (am-maybe.h:43-147).  In Some (:140-147) a throw unwinds through the local m, whose destructor
    runs. *)
Definition step (s : state) (o : op) : outcome (state * result) :=
  match o with
  | New v => do s <- declare s v; Ok (s, Done)
  | CopyCtor v w => do _ <- get_cell s w; do s <- declare s v; finish_ctor v (copy_from s v w)
  | MoveCtor v w => do _ <- get_cell s w; do s <- declare s v; finish_ctor v (move_from s v w)
  | SomeCtor v x =>
      do s <- declare s v;
      do (s, ok) <- init_with s v (fun s => Ok (s, Some x));
      if ok then Ok (s, Done) else do s <- dtor s v; Ok (s, Threw)
  | Init v x => finish (init_with s v (fun s => Ok (s, Some x)))
  | Assign v w => do s <- set_init s v false; finish (copy_from s v w)
  | AssignMove v w => do s <- set_init s v false; finish (move_from s v w)
  | Get v =>
      do c <- get_cell s v; do _ <- assert_ debug (initialized c);
      do x <- read_T s v; Ok (s, Val x)
  | IsValid v => do c <- get_cell s v; Ok (s, IsB (initialized c))
  | Destroy v => do s <- dtor s v; Ok (s, Done)
  end.

(** A client program using am-maybe.h:43-147. *)
Fixpoint run (s : state) (p : list op) : outcome (state * list result) :=
  match p with
  | [] => Ok (s, [])
  | o :: p' => do (s, r) <- step s o; do (s, rs) <- run s p'; Ok (s, r :: rs)
  end.
End MaybeThrow.

Arguments New {V}. Arguments CopyCtor {V}. Arguments MoveCtor {V}. Arguments SomeCtor {V}.
Arguments Init {V}. Arguments Assign {V}. Arguments AssignMove {V}.
Arguments Get {V}. Arguments IsValid {V}. Arguments Destroy {V}.
Arguments Done {V}. Arguments Val {V}. Arguments IsB {V}. Arguments Threw {V}.
Arguments empty_state {V}. Arguments vars {V}. Arguments lost {V}. Arguments attempts {V}.
Arguments initialized {V}. Arguments storage {V}. Arguments Cell {V}. Arguments State {V}.
