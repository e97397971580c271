(** Model of ke::PriorityQueue (amtl/am-priority-queue.h).

    std::vector<T> is a list; an element is [Some x], or [None] once it has been moved from.  Indices are
    unbounded naturals: a vector has fewer than 2^63 elements, so [at * 2 + 2] does not wrap. *)
From Verif Require Import Base.

Section PQ.
Variable T : Type.
Variable hp : T -> T -> bool.   (* is_higher_priority_ *)
Variable debug : bool.

(** impl_, a std::vector<T> (am-priority-queue.h:162). *)
Definition pq := list (option T).

(** Reading an element for a comparison or a move: it must hold a value. *)
(** The operands of is_higher_priority_ and of moves (am-priority-queue.h:100-160). *)
Definition val (l : pq) (i : nat) : outcome T :=
  do o <- slot_get l i; match o with Some x => Ok x | None => Fault MovedFrom end.
(** [T x = std::move(l[i])]: the value, and the list with l[i] moved-from. *)
(** std::move of an element (am-priority-queue.h:76-160). *)
Definition take (l : pq) (i : nat) : outcome (T * pq) :=
  do x <- val l i; Ok (x, upd l i None).
(** [l[i] = std::move(x)]. *)
Definition put (l : pq) (i : nat) (x : T) : outcome pq := slot_set l i (Some x).

(** am-priority-queue.h:137-148. *)
Definition parentOf (at_ : nat) : outcome nat :=
  do _ <- assert_ debug (0 <? at_); Ok ((at_ - 1) / 2).
Definition leftChildOf (at_ : nat) : nat := at_ * 2 + 1.
Definition rightChildOf (at_ : nat) : nat := at_ * 2 + 2.
(** am-priority-queue.h:150-155. *)
Definition hasLeftChild (l : pq) (at_ : nat) : bool := leftChildOf at_ <? length l.
Definition hasRightChild (l : pq) (at_ : nat) : bool := rightChildOf at_ <? length l.

(** am-priority-queue.h:103-110: the loop of propagateUp. *)
Fixpoint up_loop (fuel : nat) (l : pq) (cursor : nat) (key : T) : outcome (pq * nat) :=
  match fuel with
  | O => Diverge
  | S f =>
      if cursor =? 0 then Ok (l, cursor)
      else
        do parent <- parentOf cursor;
        do pv <- val l parent;
        if negb (hp key pv) then Ok (l, cursor)
        else
          do (x, l1) <- take l parent;
          do l2 <- put l1 cursor x;
          up_loop f l2 parent key
  end.
(** am-priority-queue.h:100-113. *)
Definition propagateUp (l : pq) (at_ : nat) : outcome pq :=
  do (key, l1) <- take l at_;
  do (l2, cursor) <- up_loop (S at_) l1 at_ key;
  put l2 cursor key.

(** am-priority-queue.h:115-135; std::swap reads both elements and writes both. *)
Fixpoint down_loop (fuel : nat) (l : pq) (cursor : nat) : outcome pq :=
  match fuel with
  | O => Diverge
  | S f =>
      if hasLeftChild l cursor then
        let left := leftChildOf cursor in
        do best <-
          (if hasRightChild l cursor then
             let right := rightChildOf cursor in
             do r <- val l right;
             do b <- val l left;
             Ok (if hp r b then right else left)
           else Ok left);
        do b <- val l best;
        do c <- val l cursor;
        if negb (hp b c) then Ok l
        else
          do l1 <- put l best c;
          do l2 <- put l1 cursor b;
          down_loop f l2 best
      else Ok l
  end.
Definition propagateDown (l : pq) (at_ : nat) : outcome pq := down_loop (S (length l)) l at_.

(** am-priority-queue.h:62-74 (add and emplace differ only in how the element is constructed). *)
Definition add (l : pq) (x : T) : outcome pq :=
  let l := l ++ [Some x] in
  if 1 <? length l then propagateUp l (length l - 1) else Ok l.
(** am-priority-queue.h:76-78. *)
Definition empty (l : pq) : bool := match l with [] => true | _ => false end.
(** am-priority-queue.h:80-83. *)
Definition peek (l : pq) : outcome T :=
  do _ <- assert_ debug (negb (empty l)); val l 0.
(** am-priority-queue.h:85-97. *)
Definition pop (l : pq) : outcome (T * pq) :=
  do _ <- assert_ debug (negb (empty l));
  do (top, l1) <- take l 0;
  if length l1 =? 1 then Ok (top, removelast l1)
  else
    do (b, l2) <- take l1 (length l1 - 1);
    do l3 <- put l2 0 b;
    do l4 <- propagateDown (removelast l3) 0;
    Ok (top, l4).

(** Client histories.  PMove: [PriorityQueue q2(std::move(q))], am-priority-queue.h:57-60; the history goes on
    with q2. *)
Inductive op := PAdd (x : T) | PPop | PPeek | PEmpty | PMove.
Inductive out := RNone | RVal (x : T) | RBool (b : bool).
Definition step (l : pq) (o : op) : outcome (pq * out) :=
  match o with
  | PAdd x => do l' <- add l x; Ok (l', RNone)
  | PPop => do (x, l') <- pop l; Ok (l', RVal x)
  | PPeek => do x <- peek l; Ok (l, RVal x)
  | PEmpty => Ok (l, RBool (empty l))
  | PMove => Ok (l, RNone)
  end.
Fixpoint run (l : pq) (ops : list op) : outcome (pq * list out) :=
  match ops with
  | [] => Ok (l, [])
  | o :: rest => do (l', r) <- step l o; do (l'', rs) <- run l' rest; Ok (l'', r :: rs)
  end.

(** while (!q.empty()) out.push_back(q.pop()); *)
(** A client loop over am-priority-queue.h:76-97; not code of /repo. *)
Fixpoint drain (fuel : nat) (l : pq) : outcome (list T) :=
  match fuel with
  | O => Diverge
  | S f =>
      if empty l then Ok []
      else do (x, l') <- pop l; do xs <- drain f l'; Ok (x :: xs)
  end.
(** A client loop over am-priority-queue.h:62-74; not code of /repo. *)
Fixpoint add_all (l : pq) (xs : list T) : outcome pq :=
  match xs with [] => Ok l | x :: r => do l' <- add l x; add_all l' r end.
(** Add every item of [xs] to a new queue, then drain it. *)
(** A client of am-priority-queue.h:53-98; not code of /repo. *)
Definition sort_with (xs : list T) : outcome (list T) :=
  do l <- add_all [] xs; drain (S (length l)) l.
End PQ.

Arguments PAdd {T} x. Arguments PPop {T}. Arguments PPeek {T}. Arguments PEmpty {T}. Arguments PMove {T}.
Arguments RNone {T}. Arguments RVal {T} x. Arguments RBool {T} b.
Arguments run {T} hp debug l ops. Arguments sort_with {T} hp debug xs. Arguments step {T} hp debug l o.
