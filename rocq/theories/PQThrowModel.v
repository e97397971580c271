(** ke::PriorityQueue (amtl/am-priority-queue.h) with a comparator that may throw.

    is_higher_priority_ (am-priority-queue.h:163) is any callable with a state: each call answers or throws.  An
    exception leaves the member function at the comparison; the local variables [key] and [top] are destroyed on the
    way.  The client catches it.  A cell is [Some x], or [None] once moved from, as in PQModel.v, whose simplifications
    stand: moves and destructors of T do not throw, and neither does the growth of the vector. *)
From Verif Require Import Base PQModel.

Section PQThrow.
Variable T : Type.
Variable St : Type.
Variable cmp : St -> T -> T -> option bool * St.   (* None: the call throws *)
Variable debug : bool.

(** am-priority-queue.h:103-110: the loop of propagateUp; the last component tells a throw. *)
Fixpoint up_loop (fuel : nat) (s : St) (l : pq T) (cursor : nat) (key : T) : outcome (pq T * nat * St * bool) :=
  match fuel with
  | O => Diverge
  | S f =>
      if cursor =? 0 then Ok (l, cursor, s, false)
      else
        do parent <- parentOf debug cursor;
        do pv <- val T l parent;
        let '(r, s) := cmp s key pv in
        match r with
        | None => Ok (l, cursor, s, true)
        | Some false => Ok (l, cursor, s, false)
        | Some true =>
            do (x, l1) <- take T l parent;
            do l2 <- put T l1 cursor x;
            up_loop f s l2 parent key
        end
  end.
(** am-priority-queue.h:100-113: on a throw, line 112 is skipped and [key] dies with the item in it. *)
Definition propagateUp (s : St) (l : pq T) (at_ : nat) : outcome (pq T * St * bool) :=
  do (key, l1) <- take T l at_;
  do (l2, cursor, s, threw) <- up_loop (S at_) s l1 at_ key;
  if threw : bool then Ok (l2, s, true)
  else do l3 <- put T l2 cursor key; Ok (l3, s, false).

(** am-priority-queue.h:115-135; the comparisons at 122 and 128 may throw, between swaps. *)
Fixpoint down_loop (fuel : nat) (s : St) (l : pq T) (cursor : nat) : outcome (pq T * St * bool) :=
  match fuel with
  | O => Diverge
  | S f =>
      if hasLeftChild T l cursor then
        let left := leftChildOf cursor in
        do (best, s) <-
          (if hasRightChild T l cursor then
             let right := rightChildOf cursor in
             do r <- val T l right;
             do b <- val T l left;
             let '(c, s) := cmp s r b in
             Ok (option_map (fun c : bool => if c then right else left) c, s)
           else Ok (Some left, s));
        match best with
        | None => Ok (l, s, true)
        | Some best =>
            do b <- val T l best;
            do c <- val T l cursor;
            let '(r, s) := cmp s b c in
            match r with
            | None => Ok (l, s, true)
            | Some false => Ok (l, s, false)
            | Some true =>
                do l1 <- put T l best c;
                do l2 <- put T l1 cursor b;
                down_loop f s l2 best
            end
        end
      else Ok (l, s, false)
  end.
(** am-priority-queue.h:115-135. *)
Definition propagateDown (s : St) (l : pq T) (at_ : nat) : outcome (pq T * St * bool) := down_loop (S (length l)) s l at_.

(** am-priority-queue.h:62-74. *)
Definition add (s : St) (l : pq T) (x : T) : outcome (pq T * St * bool) :=
  let l := l ++ [Some x] in
  if 1 <? length l then propagateUp s l (length l - 1) else Ok (l, s, false).
(** am-priority-queue.h:85-97: on a throw, [top] dies with the item in it. *)
Definition pop (s : St) (l : pq T) : outcome (T * pq T * St * bool) :=
  do _ <- assert_ debug (negb (empty T l));
  do (top, l1) <- take T l 0;
  if length l1 =? 1 then Ok (top, removelast l1, s, false)
  else
    do (b, l2) <- take T l1 (length l1 - 1);
    do l3 <- put T l2 0 b;
    do (l4, s, threw) <- propagateDown s (removelast l3) 0;
    Ok (top, l4, s, threw).

(** Client histories, each call in try/catch (am-priority-queue.h:53-98). *)
Inductive xout := Out (r : out T) | Threw.
Definition step (s : St) (l : pq T) (o : op T) : outcome (pq T * St * xout) :=
  match o with
  | PAdd x => do (l', s', th) <- add s l x; Ok (l', s', if th : bool then Threw else Out RNone)
  | PPop => do (x, l', s', th) <- pop s l; Ok (l', s', if th : bool then Threw else Out (RVal x))
  | PPeek => do x <- peek T debug l; Ok (l, s, Out (RVal x))
  | PEmpty => Ok (l, s, Out (RBool (empty T l)))
  | PMove => Ok (l, s, Out RNone)
  end.
(** Sequences of member calls (am-priority-queue.h:53-98). *)
Fixpoint run (s : St) (l : pq T) (ops : list (op T)) : outcome (pq T * St * list xout) :=
  match ops with
  | [] => Ok (l, s, [])
  | o :: rest => do (l', s', r) <- step s l o; do (l'', s'', rs) <- run s' l' rest; Ok (l'', s'', r :: rs)
  end.
End PQThrow.
Arguments Out {T}. Arguments Threw {T}.
Arguments up_loop {T St} cmp debug fuel s l cursor key. Arguments propagateUp {T St} cmp debug s l at_.
Arguments down_loop {T St} cmp fuel s l cursor. Arguments propagateDown {T St} cmp s l at_.
Arguments add {T St} cmp debug s l x. Arguments pop {T St} cmp debug s l.
Arguments step {T St} cmp debug s l o. Arguments run {T St} cmp debug s l ops.
