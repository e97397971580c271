(** Model of amtl/am-vector.h and amtl/am-deque.h.  The helpers only call members of std::vector / std::deque and
    std::remove_if; those are modelled here at the level of elements, as the usual implementations (libstdc++) work:
    shifting by move assignments, so that a moved-from element left behind would show.  Element operations do not
    throw.  A container is a list of cells. *)
From Verif Require Import Base.
Local Open Scope nat_scope.

Section Vec.
Variable T : Type.
(** An element of the vectors and deques of am-vector.h:40-81, am-deque.h:36-47. *)
Inductive cell := Live (x : T) | Moved.   (* an object holding a value, or a moved-from object *)
Notation vec := (list cell).

(** std::move(v[j]) used as the source of a move: the value, and v with the object moved-from. *)
(** am-vector.h:42, 45, 52; am-deque.h:37, 44. *)
Definition move_out (v : vec) (j : nat) : outcome (cell * vec) :=
  do c <- slot_get v j; do v' <- slot_set v j Moved; Ok (c, v').
(** *(begin + dst) = std::move( *(begin + src)) *)
(** As used by erase, insert and remove_if at am-vector.h:59, 64, 69, 74, 79. *)
Definition move_assign (v : vec) (dst src : nat) : outcome vec :=
  do (c, v) <- move_out v src; slot_set v dst c.

(** ** Members of std::vector *)
(** As used at am-vector.h:52-53, am-deque.h:37-38. *)
Definition v_back (v : vec) : outcome nat := match v with [] => Fault OutOfBounds | _ => Ok (length v - 1) end.
Definition v_pop_back (v : vec) : outcome vec := match v with [] => Fault OutOfBounds | _ => Ok (removelast v) end.
(** std::move(first, last, first - 1) element by element: n moves starting at index j *)
(** As used by erase at am-vector.h:59. *)
Fixpoint shift_left (n : nat) (v : vec) (j : nat) : outcome vec :=
  match n with O => Ok v | S n => do v <- move_assign v (j - 1) j; shift_left n v (j + 1) end.
(** std::move_backward: n moves, from index j - 1 to index j, then downwards *)
(** As used by insert and emplace at am-vector.h:64, 69, 74. *)
Fixpoint shift_right (n : nat) (v : vec) (j : nat) : outcome vec :=
  match n with O => Ok v | S n => do v <- move_assign v j (j - 1); shift_right n v (j - 1) end.
(** vector::erase(begin() + at) *)
(** As used at am-vector.h:59. *)
Definition v_erase (v : vec) (at_ : nat) : outcome vec :=
  if negb (at_ <? length v) then Fault OutOfBounds
  else do v <- shift_left (length v - 1 - at_) v (at_ + 1); v_pop_back v.
(** vector::insert / emplace(begin() + at, x), where the new value [x] has already been read or built (see InsertAt);
    [room]: whether size() < capacity().  Without room the elements are moved into new storage around the new one;
    with room the last one is moved up, the others are shifted, and the gap is assigned. *)
Definition v_insert (room : bool) (v : vec) (at_ : nat) (x : cell) : outcome vec :=
  if length v <? at_ then Fault OutOfBounds
  else if negb room then Ok (firstn at_ v ++ x :: skipn at_ v)
  else if at_ =? length v then Ok (v ++ [x])
  else do (last, v1) <- move_out v (length v - 1);
       do v2 <- shift_right (length v - 1 - at_) (v1 ++ [last]) (length v - 1);
       slot_set v2 at_ x.

(** ** The helpers *)
(** am-vector.h:50-55 / am-deque.h:35-40: PopBack *)
Definition PopBack (v : vec) : outcome (cell * vec) :=
  do j <- v_back v; do (t, v) <- move_out v j; do v <- v_pop_back v; Ok (t, v).
(** am-deque.h:42-47: PopFront *)
Definition PopFront (v : vec) : outcome (cell * vec) :=
  match v with
  | [] => Fault OutOfBounds
  | _ => do (t, v) <- move_out v 0; Ok (t, tl v)
  end.
(** am-vector.h:57-60: RemoveAt *)
Definition RemoveAt (v : vec) (at_ : nat) : outcome vec := v_erase v at_.
(** am-vector.h:62-65: InsertAt(const T&); the item may be an element of the vector itself.  The library copies it
    before anything moves. *)
Inductive item := Outside (x : T) | Element (k : nat).
Definition InsertAt (room : bool) (v : vec) (at_ : nat) (it : item) : outcome vec :=
  do x <- match it with Outside x => Ok (Live x) | Element k => slot_get v k end;
  v_insert room v at_ x.
(** am-vector.h:67-70: InsertAt(T&&); the item is some other object (by value here), left moved-from *)
Definition InsertAt_move (room : bool) (v : vec) (at_ : nat) (it : cell) : outcome (vec * cell) :=
  do v <- v_insert room v at_ it; Ok (v, Moved).
(** am-vector.h:72-75: EmplaceAt; [x] is the value T constructs from the arguments *)
Definition EmplaceAt (room : bool) (v : vec) (at_ : nat) (x : T) : outcome vec := v_insert room v at_ (Live x).

(** am-vector.h:77-81: EraseIf, with std::remove_if and erase(it, end()).  [pred] is the predicate; the values it is
    called on are recorded. *)
Variable pred : T -> bool.
Definition call_pred (c : cell) : outcome (bool * list T) :=
  match c with Live x => Ok (pred x, [x]) | Moved => Fault MovedFrom end.
(** std::find_if part: n elements left from index j; the index of the first one to remove, or the end *)
(** As used by remove_if at am-vector.h:79. *)
Fixpoint find_first (n : nat) (v : vec) (j : nat) : outcome (nat * list T) :=
  match n with
  | O => Ok (j, [])
  | S n => do c <- slot_get v j; do (b, log) <- call_pred c;
           if b then Ok (j, log) else do (k, log') <- find_first n v (j + 1); Ok (k, log ++ log')
  end.
(** the compaction: n elements left from index j, [out] is where the next kept one goes *)
(** As used by remove_if at am-vector.h:79. *)
Fixpoint compact (n : nat) (v : vec) (j out : nat) : outcome (nat * vec * list T) :=
  match n with
  | O => Ok (out, v, [])
  | S n => do c <- slot_get v j; do (b, log) <- call_pred c;
           if b then do (r, log') <- compact n v (j + 1) out; Ok (r, log ++ log')
           else do v <- move_assign v out j; do (r, log') <- compact n v (j + 1) (out + 1); Ok (r, log ++ log')
  end.
(** std::remove_if at am-vector.h:79. *)
Definition remove_if (v : vec) : outcome (nat * vec * list T) :=
  do (f, log) <- find_first (length v) v 0;
  if f =? length v then Ok (f, v, log)
  else do (r, log') <- compact (length v - f - 1) v (f + 1) f; Ok (r, log ++ log').
Definition EraseIf (v : vec) : outcome (vec * list T) :=
  do (r, log) <- remove_if v; let (it, v) := r in Ok (firstn it v, log).

(** ** MoveExtend (am-vector.h:39-48) *)
(** The two vectors are named so that they may be the same.  [max]: the number of elements at which emplace_back
    throws (std::length_error or std::bad_alloc), modelled as Abort. *)
(** The vectors of am-vector.h:40-48. *)
Definition memory := nat -> vec.
Definition put (m : memory) (p : nat) (v : vec) : memory := fun q => if q =? p then v else m q.
Variable max : nat.
(** am-vector.h:44-45. *)
Fixpoint extend_loop (fuel : nat) (m : memory) (dest src i : nat) : outcome memory :=
  match fuel with
  | O => Diverge
  | S fuel =>
      if negb (i <? length (m src)) then Ok m                                         (* 44 *)
      else if max <=? length (m dest) then Fault Abort
      else do (c, v) <- move_out (m src) i;                                           (* 45: src->at(i) *)
           let m := put m src v in
           extend_loop fuel (put m dest (m dest ++ [c])) dest src (i + 1)
  end.
(** am-vector.h:40-48. *)
Definition MoveExtend (fuel : nat) (m : memory) (dest src : nat) : outcome memory :=
  match m dest with
  | [] => Ok (put (put m dest (m src)) src [])     (* 42: move assignment; a moved-from std::vector is empty.  For
                                                      dest == src both are empty already *)
  | _ => do m <- extend_loop fuel m dest src 0; Ok (put m src [])                     (* 44-46 *)
  end.
End Vec.
Arguments Live {T}. Arguments Moved {T}. Arguments Outside {T}. Arguments Element {T}.
Arguments PopBack {T}. Arguments PopFront {T}. Arguments RemoveAt {T}. Arguments InsertAt {T}. Arguments InsertAt_move {T}.
Arguments EmplaceAt {T}. Arguments EraseIf {T}. Arguments MoveExtend {T}. Arguments extend_loop {T}. Arguments put {T}.
Arguments move_out {T}. Arguments move_assign {T}. Arguments shift_left {T}. Arguments shift_right {T}. Arguments v_insert {T}.
Arguments v_erase {T}. Arguments v_pop_back {T}. Arguments v_back {T}. Arguments find_first {T}. Arguments compact {T}. Arguments remove_if {T}.
Arguments call_pred {T}.
