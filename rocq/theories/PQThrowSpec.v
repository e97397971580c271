(** A priority queue whose comparator may throw, as a bag of items. *)
From Verif Require Import Base PQModel PQSpec PQThrowModel.

Section S.
Variable T : Type.

(** One call on the bag [S]: an ordinary result is that of a bag (the order is not promised here); a pop that throws
    has already removed an item, which is gone.  An add that throws is not described. *)
Definition xbag_step (S : list T) (o : op T) (r : xout T) (S' : list T) : Prop :=
  match r with
  | Out r => bag_step T (fun _ _ => false) false S o r S'
  | Threw => o = PPop /\ exists x, Permutation S (x :: S')
  end.
Inductive xbag_run : list T -> list (op T) -> list (xout T) -> list T -> Prop :=
| xbag_nil S : xbag_run S [] [] S
| xbag_cons S o r S1 ops rs S2 : xbag_step S o r S1 -> xbag_run S1 ops rs S2 -> xbag_run S (o :: ops) (r :: rs) S2.

(** The items a queue holds, whatever their order. *)
Definition holds (q : pq T) (S : list T) : Prop := Permutation q (map Some S).
End S.
Arguments xbag_step {T}. Arguments xbag_run {T}. Arguments holds {T}.
