(** ke::PriorityQueue (amtl/am-priority-queue.h) with a comparator that has a state of its own.

    is_higher_priority_ (am-priority-queue.h:163) is any callable: each call may depend on, and change, a state, so that two calls
    on the same arguments may answer differently.  [calls] lists the calls made so far, the last one first.  The functions are
    those of PQModel.v, with its simplifications, and [ask] where PQModel.v applies the comparator. *)
From Verif Require Import Base PQModel.

Section PQCost.
Variable T : Type.
Variable St : Type.
Variable cmp : St -> T -> T -> bool * St.
Variable debug : bool.

Record world := World { cst : St; calls : list (T * T) }.
(** is_higher_priority_(a, b) (am-priority-queue.h:105, 122, 128). *)
Definition ask (w : world) (a b : T) : bool * world :=
  let '(r, s) := cmp (cst w) a b in (r, World s ((a, b) :: calls w)).

(** am-priority-queue.h:103-110: the loop of propagateUp. *)
Fixpoint up_loop (fuel : nat) (w : world) (l : pq T) (cursor : nat) (key : T) : outcome (pq T * nat * world) :=
  match fuel with
  | O => Diverge
  | S f =>
      if cursor =? 0 then Ok (l, cursor, w)
      else
        do parent <- parentOf debug cursor;
        do pv <- val T l parent;
        let '(r, w) := ask w key pv in
        if negb r then Ok (l, cursor, w)
        else
          do (x, l1) <- take T l parent;
          do l2 <- put T l1 cursor x;
          up_loop f w l2 parent key
  end.
(** am-priority-queue.h:100-113. *)
Definition propagateUp (w : world) (l : pq T) (at_ : nat) : outcome (pq T * world) :=
  do (key, l1) <- take T l at_;
  do (l2, cursor, w) <- up_loop (S at_) w l1 at_ key;
  do l3 <- put T l2 cursor key; Ok (l3, w).

(** am-priority-queue.h:115-135; std::swap reads both elements and writes both. *)
Fixpoint down_loop (fuel : nat) (w : world) (l : pq T) (cursor : nat) : outcome (pq T * world) :=
  match fuel with
  | O => Diverge
  | S f =>
      if hasLeftChild T l cursor then
        let left := leftChildOf cursor in
        do (best, w) <-
          (if hasRightChild T l cursor then
             let right := rightChildOf cursor in
             do r <- val T l right;
             do b <- val T l left;
             let '(c, w) := ask w r b in
             Ok (if c then right else left, w)
           else Ok (left, w));
        do b <- val T l best;
        do c <- val T l cursor;
        let '(r, w) := ask w b c in
        if negb r then Ok (l, w)
        else
          do l1 <- put T l best c;
          do l2 <- put T l1 cursor b;
          down_loop f w l2 best
      else Ok (l, w)
  end.
(** am-priority-queue.h:115-135. *)
Definition propagateDown (w : world) (l : pq T) (at_ : nat) : outcome (pq T * world) := down_loop (S (length l)) w l at_.

(** am-priority-queue.h:62-74. *)
Definition add (w : world) (l : pq T) (x : T) : outcome (pq T * world) :=
  let l := l ++ [Some x] in
  if 1 <? length l then propagateUp w l (length l - 1) else Ok (l, w).
(** am-priority-queue.h:85-97. *)
Definition pop (w : world) (l : pq T) : outcome (T * pq T * world) :=
  do _ <- assert_ debug (negb (empty T l));
  do (top, l1) <- take T l 0;
  if length l1 =? 1 then Ok (top, removelast l1, w)
  else
    do (b, l2) <- take T l1 (length l1 - 1);
    do l3 <- put T l2 0 b;
    do (l4, w) <- propagateDown w (removelast l3) 0;
    Ok (top, l4, w).

(** Client histories, as in PQModel.v (am-priority-queue.h:53-98). *)
Definition step (w : world) (l : pq T) (o : op T) : outcome (pq T * world * out T) :=
  match o with
  | PAdd x => do (l', w') <- add w l x; Ok (l', w', RNone)
  | PPop => do (x, l', w') <- pop w l; Ok (l', w', RVal x)
  | PPeek => do x <- peek T debug l; Ok (l, w, RVal x)
  | PEmpty => Ok (l, w, RBool (empty T l))
  | PMove => Ok (l, w, RNone)
  end.
(** Sequences of member calls (am-priority-queue.h:53-98). *)
Fixpoint run (w : world) (l : pq T) (ops : list (op T)) : outcome (pq T * world * list (out T)) :=
  match ops with
  | [] => Ok (l, w, [])
  | o :: rest => do (l', w', r) <- step w l o; do (l'', w'', rs) <- run w' l' rest; Ok (l'', w'', r :: rs)
  end.
End PQCost.
Arguments World {T St} cst calls. Arguments cst {T St} w. Arguments calls {T St} w.
Arguments ask {T St} cmp w a b. Arguments up_loop {T St} cmp debug fuel w l cursor key. Arguments propagateUp {T St} cmp debug w l at_.
Arguments down_loop {T St} cmp fuel w l cursor. Arguments propagateDown {T St} cmp w l at_.
Arguments add {T St} cmp debug w l x. Arguments pop {T St} cmp debug w l.
Arguments step {T St} cmp debug w l o. Arguments run {T St} cmp debug w l ops.
