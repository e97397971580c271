(** What a user of Maybe<T> expects when T's constructors throw: a Maybe is an optional value; a statement that
    throws has a definite effect.  Only the syntax of programs and results is shared with the model. *)
From Verif Require Import Base MaybeThrowModel.

Section S.
Variable V : Type.
Variable throws : nat -> bool.

(** A variable is not there, or is Nothing, or has a value (unspecified after a move). *)
Inductive meaning := Gone | Nothing | Has (x : option V).
Definition env := nat -> meaning.
Definition put (m : env) (v : nat) (x : meaning) : env := fun u => if u =? v then x else m u.
Definition none : env := fun _ => Gone.

(** The expected effect of a statement on the variables ([k] constructions of T were attempted before it), the
    number of constructions it attempts, and its result; [None] when the program has no right to execute it.
    A constructor that throws leaves no variable; an assignment or init that throws leaves the target Nothing; the
    source of a copy is untouched and the source of a move keeps an unspecified value. *)
Definition expect (m : env) (k : nat) (o : op V) : option (env * nat * result V) :=
  match o with
  | New v => match m v with Gone => Some (put m v Nothing, 0, Done) | _ => None end
  | CopyCtor v w =>
      match m v, m w with
      | Gone, Nothing => Some (put m v Nothing, 0, Done)
      | Gone, Has x => Some (if throws k then m else put m v (Has x), 1, if throws k then Threw else Done)
      | _, _ => None
      end
  | MoveCtor v w =>
      match m v, m w with
      | Gone, Nothing => Some (put m v Nothing, 0, Done)
      | Gone, Has x =>
          Some (if throws k then put m w (Has None) else put (put m v (Has x)) w Nothing, 1,
                if throws k then Threw else Done)
      | _, _ => None
      end
  | SomeCtor v x =>
      match m v with
      | Gone => Some (if throws k then m else put m v (Has (Some x)), 1, if throws k then Threw else Done)
      | _ => None
      end
  | Init v x =>
      match m v with
      | Gone => None
      | _ => Some (put m v (if throws k then Nothing else Has (Some x)), 1, if throws k then Threw else Done)
      end
  | Assign v w =>
      if v =? w then None else
      match m v, m w with
      | Gone, _ | _, Gone => None
      | _, Nothing => Some (put m v Nothing, 0, Done)
      | _, Has x => Some (put m v (if throws k then Nothing else Has x), 1, if throws k then Threw else Done)
      end
  | AssignMove v w =>
      if v =? w then None else
      match m v, m w with
      | Gone, _ | _, Gone => None
      | _, Nothing => Some (put m v Nothing, 0, Done)
      | _, Has x =>
          Some (put (put m v (if throws k then Nothing else Has x)) w (if throws k then Has None else Nothing), 1,
                if throws k then Threw else Done)
      end
  | Get v => match m v with Has x => Some (m, 0, Val x) | _ => None end
  | IsValid v =>
      match m v with Gone => None | Nothing => Some (m, 0, IsB false) | Has _ => Some (m, 0, IsB true) end
  | Destroy v => match m v with Gone => None | _ => Some (put m v Gone, 0, Done) end
  end.

Fixpoint expects (m : env) (k : nat) (p : list (op V)) : option (env * list (result V)) :=
  match p with
  | [] => Some (m, [])
  | o :: p =>
      match expect m k o with
      | None => None
      | Some (m, n, r) => match expects m (k + n) p with Some (m, rs) => Some (m, r :: rs) | None => None end
      end
  end.

(** The statement that am-maybe.h does not survive: init on a variable that has a value, T's constructor throwing. *)
Definition bad_init (m : env) (k : nat) (o : op V) : bool :=
  match o with
  | Init v _ => match m v with Has _ => throws k | _ => false end
  | _ => false
  end.
(** Statements that abandon a T without an exception's help: assigning to, or moving from, a variable with a value
    (see C56). *)
Definition abandons (m : env) (o : op V) : bool :=
  let has v := match m v with Has _ => true | _ => false end in
  match o with
  | Assign v _ => has v
  | MoveCtor _ w => has w
  | AssignMove v w => has v || has w
  | _ => false
  end.

(** No statement of the program is of the given kind when it is reached. *)
Fixpoint never (bad : env -> nat -> op V -> bool) (m : env) (k : nat) (p : list (op V)) : bool :=
  match p with
  | [] => true
  | o :: p =>
      negb (bad m k o) && match expect m k o with None => true | Some (m, n, _) => never bad m (k + n) p end
  end.
End S.
Arguments Gone {V}. Arguments Nothing {V}. Arguments Has {V}. Arguments put {V}. Arguments none {V}.
Arguments expect {V}. Arguments expects {V}. Arguments bad_init {V}. Arguments abandons {V}. Arguments never {V}.
