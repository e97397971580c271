(** Model of ke::InlineList / InlineListNode (amtl/am-inlinelist.h).

    Memory: any number of list objects (each with its head node embedded) and of nodes.  Pointers are
    [option addr].  Accessing the head of a list that is not alive is a fault, as is dereferencing null.
    Nodes exist throughout (the class comment requires it while they are linked). *)
From Verif Require Import Base.

(** The objects of type InlineListNode: the head_ of a list (am-inlinelist.h:90) or a client node. *)
Inductive addr := Head (l : nat) | Node (n : nat).
(** Comparison of InlineListNode pointers (am-inlinelist.h:73-74, 90). *)
Definition addr_eqb (a b : addr) : bool :=
  match a, b with
  | Head i, Head j => i =? j
  | Node i, Node j => i =? j
  | _, _ => false
  end.
(** InlineListNode pointers (am-inlinelist.h:73-74). *)
Definition ptr := option addr.
Definition ptr_eqb (p q : ptr) : bool :=
  match p, q with
  | None, None => true
  | Some a, Some b => addr_eqb a b
  | _, _ => false
  end.

(** next_ and prev_ of every node (am-inlinelist.h:73-74); length_ and liveness of every list (90-91). *)
Record mem := Mem { nxt : addr -> ptr; prv : addr -> ptr; len : nat -> N; live : nat -> bool }.

Definition fupd {B} (f : addr -> B) (a : addr) (b : B) : addr -> B := fun x => if addr_eqb a x then b else f x.
Definition nupd {B} (f : nat -> B) (a : nat) (b : B) : nat -> B := fun x => if a =? x then b else f x.

(** Nothing linked, no list constructed: InlineListNode() (am-inlinelist.h:50-53). *)
Definition mem0 : mem := Mem (fun _ => None) (fun _ => None) (fun _ => 0%N) (fun _ => false).

Definition alive (m : mem) (a : addr) : bool := match a with Head l => live m l | Node _ => true end.
Definition chk (m : mem) (p : ptr) : outcome addr :=
  match p with
  | None => Fault NullDeref
  | Some a => if alive m a then Ok a else Fault UseAfterFree
  end.
Definition rd_next (m : mem) (p : ptr) : outcome ptr := do a <- chk m p; Ok (nxt m a).
Definition rd_prev (m : mem) (p : ptr) : outcome ptr := do a <- chk m p; Ok (prv m a).
Definition wr_next (m : mem) (p q : ptr) : outcome mem :=
  do a <- chk m p; Ok (Mem (fupd (nxt m) a q) (prv m) (len m) (live m)).
Definition wr_prev (m : mem) (p q : ptr) : outcome mem :=
  do a <- chk m p; Ok (Mem (nxt m) (fupd (prv m) a q) (len m) (live m)).
Definition rd_len (m : mem) (l : nat) : outcome N :=
  if live m l then Ok (len m l) else Fault UseAfterFree.
Definition wr_len (m : mem) (l : nat) (n : N) : outcome mem :=
  if live m l then Ok (Mem (nxt m) (prv m) (nupd (len m) l n) (live m)) else Fault UseAfterFree.

Section InlineList.
Variable debug : bool.   (* NDEBUG not defined *)

(** am-inlinelist.h:60-63. *)
Definition isInList (m : mem) (n : nat) : outcome bool :=
  do nx <- rd_next m (Some (Node n));
  do pv <- rd_prev m (Some (Node n));
  do _ <- assert_ debug (Bool.eqb (negb (ptr_eqb nx None)) (negb (ptr_eqb pv None)));
  Ok (negb (ptr_eqb nx None)).

(** am-inlinelist.h:65-70. *)
Definition removeFromParentList (m : mem) (n : nat) : outcome mem :=
  let this := Some (Node n) in
  do p <- rd_prev m this; do q <- rd_next m this; do m <- wr_next m p q;
  do q <- rd_next m this; do p <- rd_prev m this; do m <- wr_prev m q p;
  do m <- wr_next m this None;
  wr_prev m this None.

(** am-inlinelist.h:99-102. *)
Definition construct (m : mem) (l : nat) : mem :=
  Mem (fupd (nxt m) (Head l) (Some (Head l))) (fupd (prv m) (Head l) (Some (Head l)))
      (nupd (len m) l 0%N) (nupd (live m) l true).

(** am-inlinelist.h:210-219. *)
Definition remove (m : mem) (l : nat) (t : ptr) : outcome mem :=
  do p <- rd_prev m t; do q <- rd_next m t; do m <- wr_next m p q;
  do q <- rd_next m t; do p <- rd_prev m t; do m <- wr_prev m q p;
  do k <- rd_len m l; do m <- wr_len m l (usub 64 k 1);
  if debug then do m <- wr_next m t None; wr_prev m t None else Ok m.

(** am-inlinelist.h:221-230. *)
Definition append (m : mem) (l : nat) (t : ptr) : outcome mem :=
  let head := Some (Head l) in
  do nx <- rd_next m t; do _ <- assert_ debug (ptr_eqb nx None);
  do pv <- rd_prev m t; do _ <- assert_ debug (ptr_eqb pv None);
  do p <- rd_prev m head; do m <- wr_prev m t p;
  do m <- wr_next m t head;
  do p <- rd_prev m head; do m <- wr_next m p t;
  do m <- wr_prev m head t;
  do k <- rd_len m l; wr_len m l (uadd 64 k 1).

(** am-inlinelist.h:232-234, 206-208. *)
Definition length_ (m : mem) (l : nat) : outcome N := rd_len m l.
Definition empty (m : mem) (l : nat) : outcome bool :=
  do p <- rd_next m (Some (Head l)); Ok (ptr_eqb p (Some (Head l))).

(** am-inlinelist.h:113-191: an iterator is the node pointer; dir = true: iterator, false: reverse_iterator.
    begin/rbegin, ++. *)
Definition advance (dir : bool) (m : mem) (it : ptr) : outcome ptr :=
  if dir then rd_next m it else rd_prev m it.
Definition begin_ (dir : bool) (m : mem) (l : nat) : outcome ptr := advance dir m (Some (Head l)).
(** [*it] used as a T*: the head is not a T. *)
Definition deref (it : ptr) : outcome nat :=
  match it with Some (Node n) => Ok n | Some (Head _) => Fault BadArg | None => Fault NullDeref end.

(** am-inlinelist.h:193-204: (memory, returned iterator). *)
Definition erase (dir : bool) (m : mem) (l : nat) (at_ : ptr) : outcome (mem * ptr) :=
  do next <- advance dir m at_;
  do m <- remove m l at_;
  Ok (m, next).

(** for (it = begin(); it != end(); ) { visit( *it ); if (pred( *it )) it = erase(it); else it++; } *)
(** The client loop over am-inlinelist.h:119-204; not code of /repo. *)
Fixpoint iter_loop (fuel : nat) (dir : bool) (pred : nat -> bool) (m : mem) (l : nat) (it : ptr) (acc : list nat)
    : outcome (mem * list nat) :=
  match fuel with
  | O => Diverge
  | S f =>
      if ptr_eqb it (Some (Head l)) then Ok (m, rev acc)
      else
        do n <- deref it;
        if pred n then
          do (m, it) <- erase dir m l it; iter_loop f dir pred m l it (n :: acc)
        else
          do it <- advance dir m it; iter_loop f dir pred m l it (n :: acc)
  end.
Definition iterate (fuel : nat) (dir : bool) (pred : nat -> bool) (m : mem) (l : nat) : outcome (mem * list nat) :=
  do it <- begin_ dir m l; iter_loop fuel dir pred m l it [].

(** am-inlinelist.h:104-110. *)
Fixpoint dtor_loop (fuel : nat) (m : mem) (l : nat) : outcome mem :=
  match fuel with
  | O => Diverge
  | S f =>
      do it <- begin_ true m l;
      if ptr_eqb it (Some (Head l)) then Ok m
      else do m <- remove m l it; dtor_loop f m l
  end.
Definition destroy (fuel : nat) (m : mem) (l : nat) : outcome mem :=
  do m <- (if debug then dtor_loop fuel m l else Ok m);
  Ok (Mem (nxt m) (prv m) (len m) (nupd (live m) l false)).

(** Client histories. *)
(** Client calls of am-inlinelist.h:80-236; not code of /repo. *)
Inductive op :=
| LNew (l : nat) | LDelete (l : nat)
| LAppend (l n : nat) | LRemove (l n : nat) | LUnlink (n : nat)
| LIterate (dir : bool) (l : nat) | LEraseIf (dir : bool) (pred : nat -> bool) (l : nat)
| LLength (l : nat) | LEmpty (l : nat) | LIsInList (n : nat).
(** Observable results of the calls of am-inlinelist.h:80-236. *)
Inductive out := RUnit | RNodes (s : list nat) | RNum (n : N) | RBool (b : bool).

(** One client call of am-inlinelist.h:80-236. *)
Definition step (fuel : nat) (m : mem) (o : op) : outcome (mem * out) :=
  match o with
  | LNew l => Ok (construct m l, RUnit)
  | LDelete l => do m' <- destroy fuel m l; Ok (m', RUnit)
  | LAppend l n => do m' <- append m l (Some (Node n)); Ok (m', RUnit)
  | LRemove l n => do m' <- remove m l (Some (Node n)); Ok (m', RUnit)
  | LUnlink n => do m' <- removeFromParentList m n; Ok (m', RUnit)
  | LIterate dir l => do (m', s) <- iterate fuel dir (fun _ => false) m l; Ok (m', RNodes s)
  | LEraseIf dir pred l => do (m', s) <- iterate fuel dir pred m l; Ok (m', RNodes s)
  | LLength l => do n <- length_ m l; Ok (m, RNum n)
  | LEmpty l => do b <- empty m l; Ok (m, RBool b)
  | LIsInList n => do b <- isInList m n; Ok (m, RBool b)
  end.
(** A sequence of client calls of am-inlinelist.h:80-236. *)
Fixpoint run (fuel : nat) (m : mem) (ops : list op) : outcome (mem * list out) :=
  match ops with
  | [] => Ok (m, [])
  | o :: rest => do (m', r) <- step fuel m o; do (m'', rs) <- run fuel m' rest; Ok (m'', r :: rs)
  end.
End InlineList.
