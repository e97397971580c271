(** refcount_ as the machine has it (uintptr_t, am-refcounting.h:135), together with destructors that use RefPtrs themselves.

    ReenterModel.v counts upwards without bound.  The functions that increment refcount_ are transcribed again here over [inc],
    which is the increment of an unsigned integer of [width] bits for the C++ program, or an observer that stops when that
    increment would wrap.  Release(), which only decrements, is the one of ReenterModel.v, where decrementing 0 gives
    2^width - 1.  Everything else, and the simplifications, are those of ReenterModel.v. *)
From Verif Require Import Base ReenterModel.

(** refcount_++ on an unsigned integer of [width] bits (am-refcounting.h:122-124). *)
Definition inc_machine (width n : nat) : outcome nat := Ok ((n + 1) mod 2 ^ width).
(** Observer of increments that wrap (am-refcounting.h:122-124); not code of /repo. *)
Definition inc_observed (width n : nat) : outcome nat := if 2 ^ width <=? n + 1 then Fault BadArg else Ok (n + 1).

Section ReWidth.
Variable debug : bool.
Variable width : nat.
Variable inc : nat -> outcome nat.
Variable chk : bool.
Variable script : nat -> list cmd.

(** am-refcounting.h:122-124, 308-311; the count is there until the storage is gone. *)
Definition add_refW (s : world) (q : option nat) : outcome world :=
  match q with
  | None => Ok s
  | Some o => do ob <- slot_get (objs s) o;
      match st ob with
      | Dead => Fault UseAfterFree
      | _ => do n <- inc (rc ob); Ok (set_obj s o (Obj n (st ob) (cls ob) (mem ob)))
      end
  end.
(** The members of a new object: am-refcounting.h:205-209. *)
Fixpoint copiesW (c : ctx) (s : world) (ms : list path) : outcome (world * list (option nat)) :=
  match ms with
  | [] => Ok (s, [])
  | m :: r =>
      do l <- res c m; do _ <- touch chk c l; do q <- read s l; do s <- add_refW s q;
      do (s, qs) <- copiesW c s r; Ok (s, q :: qs)
  end.
Section Step.
Variable exec : ctx -> world -> list cmd -> outcome world.
Variable rel : ctx -> world -> nat -> outcome world.
(** operator = of a raw pointer: am-refcounting.h:265-271, after the Release(). *)
Definition putW (s : world) (l : loc) (q : option nat) : outcome world := do s <- write s l q; add_refW s q.
(** operator =(const RefPtr&): am-refcounting.h:280-285. *)
Definition copy_assignW (c : ctx) (s : world) (l m : loc) : outcome world :=
  do s <- release_old chk rel c s l; do _ <- touch chk (assigning c l) m; do q <- read s m; putW s l q.
(** One command, as [step] of ReenterModel.v (am-refcounting.h:187-318). *)
Definition stepW (c : ctx) (s : world) (k : cmd) : outcome world :=
  match k with
  | Null l => do l <- res c l; do s <- release_old chk rel c s l; putW s l None
  | New l k ms =>
      do (s, qs) <- copiesW c s ms;
      let n := length (objs s) in
      let s := World (objs s ++ [Obj 0 Alive k qs]) (globs s) (log s) in
      do l <- res c l; do s <- release_old chk rel c s l; putW s l (Some n)
  | Copy l m => do l <- res c l; do m <- res c m; copy_assignW c s l m
  | CopyRaw l m =>
      do m <- res c m; do _ <- touch chk c m; do q <- read s m; do _ <- pinned chk c q;
      do l <- res c l; do s <- release_old chk rel c s l; putW s l q
  | Move l m =>
      do l <- res c l; do m <- res c m;
      do s <- release_old chk rel c s l; do _ <- touch chk (assigning c l) m; do q <- read s m;
      do s <- write s l q; write s m None
  | Hold m body =>
      do m <- res c m; do _ <- touch chk c m; do q <- read s m; do s <- add_refW s q;
      do s <- exec (Ctx (this c) (busy c) (q :: pins c)) s body;
      relp rel c s q
  | Store v j m =>
      do m <- res c m; do _ <- touch chk c (LG v); do g <- read s (LG v);
      match g with
      | None => Ok s
      | Some o => do _ <- pinned chk c g; copy_assignW c s (LM o j) m
      end
  end.
End Step.

Fixpoint execW (fuel : nat) (c : ctx) (s : world) (ks : list cmd) {struct fuel} : outcome world :=
  match fuel with
  | O => Diverge
  | S f =>
      match ks with
      | [] => Ok s
      | k :: r => do s <- stepW (execW f) (relW f) c s k; execW f c s r
      end
  end
with relW (fuel : nat) (c : ctx) (s : world) (o : nat) {struct fuel} : outcome world :=
  match fuel with
  | O => Diverge
  | S f => release debug (2 ^ width - 1) script (execW f) (relW f) c s o
  end.
(** A client program over am-refcounting.h:114-136, 187-318; not code of /repo. *)
Definition runW (fuel ng : nat) (prog : list cmd) : outcome world := execW fuel main_ctx (start ng) prog.
End ReWidth.
