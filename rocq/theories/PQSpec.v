(** Specification of a priority queue: a bag from which a pop takes an element of maximal priority. *)
From Verif Require Import Base PQModel.

Section Spec.
Variable T : Type.
Variable hp : T -> T -> bool.

(** hp is a strict weak order. *)
Definition strict_weak_order : Prop :=
  (forall a, hp a a = false) /\
  (forall a b c, hp a b = true -> hp b c = true -> hp a c = true) /\
  (forall a b c, hp a b = false -> hp b c = false -> hp a c = false).

(** No element of S has higher priority than x. *)
Definition maximal (x : T) (S : list T) : Prop := In x S /\ forall y, In y S -> hp y x = false.

(** [ordered = true]: what is read or popped is maximal; [ordered = false]: it is merely some element. *)
Definition best (ordered : bool) (x : T) (S : list T) : Prop :=
  if ordered then maximal x S else In x S.

Definition bag_step (ordered : bool) (S : list T) (o : op T) (r : out T) (S' : list T) : Prop :=
  match o with
  | PAdd x => r = RNone /\ Permutation S' (x :: S)
  | PPop => exists x, r = RVal x /\ best ordered x S /\ Permutation S (x :: S')
  | PPeek => exists x, r = RVal x /\ best ordered x S /\ Permutation S' S
  | PEmpty => r = RBool (match S with [] => true | _ => false end) /\ Permutation S' S
  | PMove => r = RNone /\ Permutation S' S
  end.
Inductive bag_run (ordered : bool) : list T -> list (op T) -> list (out T) -> list T -> Prop :=
| bag_nil S : bag_run ordered S [] [] S
| bag_cons S o r S1 ops rs S2 :
    bag_step ordered S o r S1 -> bag_run ordered S1 ops rs S2 -> bag_run ordered S (o :: ops) (r :: rs) S2.

(** Histories that respect the only precondition: no pop or peek on an empty queue ([n] elements present). *)
Fixpoint legal (n : nat) (ops : list (op T)) : Prop :=
  match ops with
  | [] => True
  | PAdd _ :: r => legal (S n) r
  | PPop :: r => 0 < n /\ legal (n - 1) r
  | PPeek :: r => 0 < n /\ legal n r
  | (PEmpty | PMove) :: r => legal n r
  end.

(** No later item has higher priority than an earlier one. *)
Definition sorted (l : list T) : Prop :=
  forall i j x y, i < j -> nth_error l i = Some x -> nth_error l j = Some y -> hp y x = false.
End Spec.
Arguments strict_weak_order {T} hp. Arguments maximal {T} hp x S. Arguments sorted {T} hp l.
Arguments bag_run {T} hp ordered S ops rs S'. Arguments legal {T} n ops.
