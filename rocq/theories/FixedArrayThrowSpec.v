(** What a user of FixedArray<T> expects when T's constructors throw.  Only the syntax of programs and results is
    shared with the model. *)
From Verif Require Import Base FixedArrayThrowModel.

Section S.
Variable V : Type.
Variable dflt : V.
Variable throws : nat -> bool.

(** A variable is not there, or is an array ([store]: it was built with a size, so it has storage, even if empty);
    [Shaky]: the target of a copy assignment that threw, whose contents are unspecified but which can be ended. *)
Inductive meaning := Gone | Is (store : bool) (l : list V) | Shaky.
Definition env := nat -> meaning.
Definition put (m : env) (v : nat) (x : meaning) : env := fun u => if u =? v then x else m u.
Definition none : env := fun _ => Gone.

(** Of n constructions starting with the k-th, how many succeed before the first that throws. *)
Fixpoint succeed (k n : nat) : nat :=
  match n with O => 0 | S n => if throws k then 0 else S (succeed (S k) n) end.
(** ... whether all succeed, and how many are attempted. *)
Definition all_ok (k n : nat) : bool := succeed k n =? n.
Definition tried (k n : nat) : nat := if all_ok k n then n else S (succeed k n).

(** The effect of a statement: the variables, the constructions attempted, the result, and what FixedArray leaks: the
    elements in each block of storage that is never freed. [None]: the program may not execute it. *)
Definition effect := (env * nat * result V * list (list V))%type.

(** A constructor building [l]. *)
Definition ctor (m : env) (k : nat) (v : nat) (l : list V) : option effect :=
  match m v with
  | Gone =>
      Some (if all_ok k (length l) then (put m v (Is true l), tried k (length l), Done, [])
            else (m, tried k (length l), Threw, [firstn (succeed k (length l)) l]))
  | _ => None
  end.

Definition expect (m : env) (k : nat) (o : op V) : option effect :=
  match o with
  | NewDefault v => match m v with Gone => Some (put m v (Is false []), 0, Done, []) | _ => None end
  | NewSize v n => ctor m k v (repeat dflt n)
  | FromVector v l => ctor m k v l
  | CopyCtor v u => match m u with Is _ l => ctor m k v l | _ => None end
  | MoveCtor v u =>
      match m v, m u with
      | Gone, Is b l => Some (put (put m v (Is b l)) u (Is false []), 0, Done, [])
      | _, _ => None
      end
  | AssignCopy v u =>
      if v =? u then None else
      match m v, m u with
      | Is bv lv, Is bu lu =>
          let n := length lu in
          let store := if length lv =? n then bv else true in
          Some (if all_ok k n then (put m v (Is store lu), tried k n, Done, [])
                else (put m v Shaky, tried k n, Threw, []))
      | _, _ => None
      end
  | AssignMove v u =>
      if v =? u then None else
      match m v, m u with
      | Is bv lv, Is bu lu =>
          Some (put (put m v (Is bu lu)) u (Is false []), 0, Done, if bv then [lv] else [])
      | _, _ => None
      end
  | GetAt v i => match m v with Is _ l => match nth_error l i with Some x => Some (m, 0, Val x, []) | None => None end
                 | _ => None end
  | Size v => match m v with Is _ l => Some (m, 0, Num (length l), []) | _ => None end
  | Destroy v => match m v with Gone => None | _ => Some (put m v Gone, 0, Done, []) end
  end.

Fixpoint expects (m : env) (k : nat) (p : list (op V)) : option (env * list (result V) * list (list V)) :=
  match p with
  | [] => Some (m, [], [])
  | o :: p =>
      match expect m k o with
      | None => None
      | Some (m, n, r, l) =>
          match expects m (k + n) p with Some (m, rs, ls) => Some (m, r :: rs, l ++ ls) | None => None end
      end
  end.

(** The copy assignments in which a T's constructor throws. *)
Definition bad_assign (m : env) (k : nat) (o : op V) : bool :=
  match o with
  | AssignCopy _ u => match m u with Is _ l => negb (all_ok k (length l)) | _ => false end
  | _ => false
  end.
Fixpoint no_bad_assign (m : env) (k : nat) (p : list (op V)) : bool :=
  match p with
  | [] => true
  | o :: p =>
      negb (bad_assign m k o)
      && match expect m k o with None => true | Some (m, n, _, _) => no_bad_assign m (k + n) p end
  end.
End S.
(** The constructed elements of a block. *)
Definition elements {V} (b : list (option V)) : list V :=
  flat_map (fun x => match x with Some y => [y] | None => [] end) b.
Arguments Gone {V}. Arguments Is {V}. Arguments Shaky {V}. Arguments put {V}. Arguments none {V}.
Arguments ctor {V}. Arguments expect {V}. Arguments expects {V}. Arguments bad_assign {V}. Arguments no_bad_assign {V}.
