(** ke::PriorityQueue (amtl/am-priority-queue.h) with items whose moves may throw.

    The constructions and assignments of T are counted; [throws] says which of them throw.  A move that throws leaves its
    source and its target as they were.  The exception leaves the member function; the local variables [key], [top] and the
    temporary of std::swap are destroyed on the way.  Simplifications: the comparator is a function and does not throw
    (PQThrowModel.v has that), and the growth of the vector moves no items. *)
From Verif Require Import Base PQModel.

Section PQMove.
Variable T : Type.
Variable hp : T -> T -> bool.
Variable debug : bool.
(** Which moves throw (am-priority-queue.h:64, 71, 88, 92, 96, 102, 108, 112, 132); not code of /repo. *)
Variable throws : nat -> bool.
(** The compiler constructs [top] in place of the return value (am-priority-queue.h:88, 96). *)
Variable elided : bool.

(** am-priority-queue.h:103-110: the loop of propagateUp; the last components count the moves and tell a throw. *)
Fixpoint up_loop (fuel : nat) (n : nat) (l : pq T) (cursor : nat) (key : T) : outcome (pq T * nat * nat * bool) :=
  match fuel with
  | O => Diverge
  | S f =>
      if cursor =? 0 then Ok (l, cursor, n, false)
      else
        do parent <- parentOf debug cursor;
        do pv <- val T l parent;
        if negb (hp key pv) then Ok (l, cursor, n, false)
        else if throws n then Ok (l, cursor, S n, true)            (* line 108 *)
        else
          do (x, l1) <- take T l parent;
          do l2 <- put T l1 cursor x;
          up_loop f (S n) l2 parent key
  end.
(** am-priority-queue.h:100-113. *)
Definition propagateUp (n : nat) (l : pq T) (at_ : nat) : outcome (pq T * nat * bool) :=
  do (key, l1) <- take T l at_;
  if throws n then Ok (l, S n, true)                               (* line 102 *)
  else
    do (l2, cursor, n, threw) <- up_loop (S at_) (S n) l1 at_ key;
    if threw : bool then Ok (l2, n, true)
    else if throws n then Ok (l2, S n, true)                       (* line 112 *)
    else do l3 <- put T l2 cursor key; Ok (l3, S n, false).

(** am-priority-queue.h:115-135; std::swap(best, cursor) makes three moves: tmp = best, best = cursor, cursor = tmp. *)
Fixpoint down_loop (fuel : nat) (n : nat) (l : pq T) (cursor : nat) : outcome (pq T * nat * bool) :=
  match fuel with
  | O => Diverge
  | S f =>
      if hasLeftChild T l cursor then
        let left := leftChildOf cursor in
        do best <-
          (if hasRightChild T l cursor then
             let right := rightChildOf cursor in
             do r <- val T l right;
             do b <- val T l left;
             Ok (if hp r b then right else left)
           else Ok left);
        do b <- val T l best;
        do c <- val T l cursor;
        if negb (hp b c) then Ok (l, n, false)
        else if throws n then Ok (l, S n, true)
        else if throws (S n) then Ok (upd l best None, S (S n), true)
        else
          do l1 <- put T l best c;
          if throws (S (S n)) then Ok (upd l1 cursor None, S (S (S n)), true)
          else
            do l2 <- put T l1 cursor b;
            down_loop f (S (S (S n))) l2 best
      else Ok (l, n, false)
  end.
(** am-priority-queue.h:115-135. *)
Definition propagateDown (n : nat) (l : pq T) (at_ : nat) : outcome (pq T * nat * bool) := down_loop (S (length l)) n l at_.

(** am-priority-queue.h:62-74: push_back changes nothing when the construction throws. *)
Definition add (n : nat) (l : pq T) (x : T) : outcome (pq T * nat * bool) :=
  if throws n then Ok (l, S n, true)
  else
    let l := l ++ [Some x] in
    if 1 <? length l then propagateUp (S n) l (length l - 1) else Ok (l, S n, false).
(** am-priority-queue.h:96, the return of [top]. *)
Definition return_top (n : nat) (top : T) (l : pq T) : pq T * nat * option T :=
  if elided then (l, n, Some top) else if throws n then (l, S n, None) else (l, S n, Some top).
(** am-priority-queue.h:85-97; None: the call threw. *)
Definition pop (n : nat) (l : pq T) : outcome (pq T * nat * option T) :=
  do _ <- assert_ debug (negb (empty T l));
  do (top, l1) <- take T l 0;
  if throws n then Ok (l, S n, None)                               (* line 88 *)
  else if length l1 =? 1 then Ok (return_top (S n) top (removelast l1))
  else
    do (b, l2) <- take T l1 (length l1 - 1);
    if throws (S n) then Ok (l1, S (S n), None)                    (* line 92 *)
    else
      do l3 <- put T l2 0 b;
      do (l4, n, threw) <- propagateDown (S (S n)) (removelast l3) 0;
      if threw : bool then Ok (l4, n, None) else Ok (return_top n top l4).

(** One call of a client, in try/catch (am-priority-queue.h:53-98); None: it threw. *)
Definition step (n : nat) (l : pq T) (o : op T) : outcome (pq T * nat * option (out T)) :=
  match o with
  | PAdd x => do (l', n', th) <- add n l x; Ok (l', n', if th : bool then None else Some RNone)
  | PPop => do (l', n', r) <- pop n l; Ok (l', n', option_map RVal r)
  | PPeek => do x <- peek T debug l; Ok (l, n, Some (RVal x))
  | PEmpty => Ok (l, n, Some (RBool (empty T l)))
  | PMove => Ok (l, n, Some RNone)
  end.
(** Sequences of member calls, each in try/catch (am-priority-queue.h:53-98). *)
Fixpoint run (n : nat) (l : pq T) (ops : list (op T)) : outcome (pq T * nat * list (option (out T))) :=
  match ops with
  | [] => Ok (l, n, [])
  | o :: rest => do (l', n', r) <- step n l o; do (l'', n'', rs) <- run n' l' rest; Ok (l'', n'', r :: rs)
  end.
End PQMove.
Arguments up_loop {T}. Arguments propagateUp {T}. Arguments down_loop {T}. Arguments propagateDown {T}.
Arguments add {T}. Arguments pop {T}. Arguments step {T}. Arguments return_top {T}. Arguments run {T}.
