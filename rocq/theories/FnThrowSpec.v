(** What a user of Function expects when the constructors of callables throw.  Only the syntax of programs and results
    is shared with the model. *)
From Verif Require Import Base FnThrowModel.

Section S.
Variable V : Type.
Variable fits : V -> bool.
Variable throws : nat -> bool.

(** A variable is not there, is an empty Function, or holds a callable (its value, and whether it was moved from). *)
Inductive meaning := Gone | Empty | Holds (c : V * bool).
Definition env := nat -> meaning.
Definition put (m : env) (v : nat) (x : meaning) : env := fun u => if u =? v then x else m u.
Definition none : env := fun _ => Gone.

(** The effect of a statement: the variables, how many constructions of callables it attempts (at most one: moving a
    callable that does not fit the inline buffer needs none), its result.  A constructor that throws leaves no
    variable, an assignment that throws leaves the target empty, the source of a copy is untouched and the source
    of a move still holds a callable. *)
Definition expect (m : env) (k : nat) (o : op V) : option (env * nat * result V) :=
  let t := throws k in
  let res := if t then Threw else Done in
  match o with
  | New v => match m v with Gone => Some (put m v Empty, 0, Done) | _ => None end
  | CopyCtor v w =>
      match m v, m w with
      | Gone, Empty => Some (put m v Empty, 0, Done)
      | Gone, Holds c => Some (if t then m else put m v (Holds c), 1, res)
      | _, _ => None
      end
  | MoveCtor v w =>
      match m v, m w with
      | Gone, Empty => Some (put m v Empty, 0, Done)
      | Gone, Holds c =>
          if fits (fst c)
          then Some (if t then put m w (Holds (fst c, true)) else put (put m v (Holds c)) w Empty, 1, res)
          else Some (put (put m v (Holds c)) w Empty, 0, Done)
      | _, _ => None
      end
  | FromObj v x =>
      match m v with
      | Gone => Some (if t then m else put m v (Holds (x, false)), 1, res)
      | _ => None
      end
  | AssignNull v => match m v with Gone => None | _ => Some (put m v Empty, 0, Done) end
  | Assign v w =>
      if v =? w then None else
      match m v, m w with
      | Gone, _ | _, Gone => None
      | _, Empty => Some (put m v Empty, 0, Done)
      | _, Holds c => Some (put m v (if t then Empty else Holds c), 1, res)
      end
  | AssignMove v w =>
      if v =? w then None else
      match m v, m w with
      | Gone, _ | _, Gone => None
      | _, Empty => Some (put m v Empty, 0, Done)
      | _, Holds c =>
          if fits (fst c)
          then Some (put (put m v (if t then Empty else Holds c)) w (if t then Holds (fst c, true) else Empty), 1, res)
          else Some (put (put m v (Holds c)) w Empty, 0, Done)
      end
  | AssignObj v x =>
      match m v with
      | Gone => None
      | _ => Some (put m v (if t then Empty else Holds (x, false)), 1, res)
      end
  | Call v => match m v with Holds c => Some (m, 0, Called c) | _ => None end
  | AsBool v =>
      match m v with Gone => None | Empty => Some (m, 0, IsB false) | Holds _ => Some (m, 0, IsB true) end
  | Destroy v => match m v with Gone => None | _ => Some (put m v Gone, 0, Done) end
  end.

Fixpoint expects (m : env) (k : nat) (p : list (op V)) : option (env * list (result V)) :=
  match p with
  | [] => Some (m, [])
  | o :: p =>
      match expect m k o with
      | None => None
      | Some (m, n, r) => match expects m (k + n) p with Some (m, rs) => Some (m, r :: rs) | None => None end
      end
  end.

(** The assignments am-function.h does not survive: the construction throws, and either the target held a callable or
    the source is a callable (not a Function) that goes to the inline buffer. *)
Definition bad_assign (m : env) (k : nat) (o : op V) : bool :=
  let holds v := match m v with Holds _ => true | _ => false end in
  match o with
  | Assign v w => throws k && holds v && holds w
  | AssignMove v w => throws k && holds v && match m w with Holds c => fits (fst c) | _ => false end
  | AssignObj v x => throws k && (holds v || fits x)
  | _ => false
  end.
Fixpoint no_bad_assign (m : env) (k : nat) (p : list (op V)) : bool :=
  match p with
  | [] => true
  | o :: p =>
      negb (bad_assign m k o)
      && match expect m k o with None => true | Some (m, n, _) => no_bad_assign m (k + n) p end
  end.
End S.
Arguments Gone {V}. Arguments Empty {V}. Arguments Holds {V}. Arguments put {V}. Arguments none {V}.
Arguments expect {V}. Arguments expects {V}. Arguments bad_assign {V}. Arguments no_bad_assign {V}.
