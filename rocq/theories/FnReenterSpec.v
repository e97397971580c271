(** What a program over Functions means when a Function is an optional value of a callable class: no storage, no addresses.
    While a callable is destroyed, the Function that held it is already empty. *)
From Verif Require Import Base FnReenterModel.

Section Ideal.
Variable inline : nat -> bool.
Variable body : nat -> list cmd.
Variable dtor : nat -> bool -> list cmd.

(** The contents of the Functions, by number; [None] is an empty Function. *)
Definition store := list (option (nat * bool)).   (* class, moved from? *)
Definition is_set (s : store) (f : nat) : bool := match nth f s None with Some _ => true | None => false end.

(** [means s ks evs s']: running [ks] from [s] ends in [s'], and the events are [evs], oldest first. *)
Inductive means : store -> list cmd -> list event -> store -> Prop :=
| m_done s : means s [] [] s
| m_seq s k r e1 e2 s1 s2 : one s k e1 s1 -> means s1 r e2 s2 -> means s (k :: r) (e1 ++ e2) s2
with one : store -> cmd -> list event -> store -> Prop :=
| m_clear s f e s1 : empties s f e s1 -> one s (Clear f) e s1
| m_set s f c e s1 : empties s f e s1 -> one s (Set_ f c false) e (upd s1 f (Some (c, false)))
| m_set_tmp s f c e1 s1 e2 s2 :
    empties s f e1 s1 -> drops (upd s1 f (Some (c, false))) (c, false) e2 s2 ->
    one s (Set_ f c true) (e1 ++ e2) s2
| m_copy s f g e s1 : empties s f e s1 -> one s (Copy f g) e (upd s1 f (nth g s1 None))
| m_move_none s f g e s1 : empties s f e s1 -> nth g s1 None = None -> one s (Move f g) e s1
| m_move_big s f g e s1 c m :
    empties s f e s1 -> nth g s1 None = Some (c, m) -> inline c = false ->
    one s (Move f g) e (upd (upd s1 f (Some (c, m))) g None)
| m_move_small s f g e1 s1 c m e2 s2 :
    empties s f e1 s1 -> nth g s1 None = Some (c, m) -> inline c = true ->
    drops (upd (upd s1 f (Some (c, m))) g None) (c, true) e2 s2 ->
    one s (Move f g) (e1 ++ e2) s2
| m_call_none s f : nth f s None = None -> one s (Call f) [] s
| m_call s f c m e s1 : nth f s None = Some (c, m) -> means s (body c) e s1 -> one s (Call f) (Called c :: e) s1
| m_test s f : one s (Test f) [Tested (is_set s f)] s
| m_use s : one s Use [] s
(** A Function loses its callable. *)
with empties : store -> nat -> list event -> store -> Prop :=
| m_empty s f : nth f s None = None -> empties s f [] s
| m_full s f v e s1 : nth f s None = Some v -> drops (upd s f None) v e s1 -> empties s f e s1
(** A callable is destroyed. *)
with drops : store -> nat * bool -> list event -> store -> Prop :=
| m_drop s c m e s1 : means s (dtor c m) e s1 -> drops s (c, m) (Dropped c m :: e) s1.

(** The discipline: Functions and callable classes have ranks; a Function of rank r holds callables of rank at most r, and the code
    of a callable of rank r uses only Functions of rank less than r. *)
Variable rank : nat -> nat.    (* of Functions *)
Variable crank : nat -> nat.   (* of callable classes *)
Definition ranked (nf r : nat) (k : cmd) : Prop :=
  match k with
  | Clear f | Call f | Test f => f < nf /\ rank f < r
  | Set_ f c _ => f < nf /\ rank f < r /\ crank c <= rank f
  | Copy f g | Move f g => f < nf /\ g < nf /\ f <> g /\ rank f < r /\ rank g <= rank f
  | Use => True
  end.
Definition disciplined (nf : nat) (prog : list cmd) : Prop :=
  (exists r, Forall (ranked nf r) prog) /\
  (forall c, Forall (ranked nf (crank c)) (body c)) /\
  (forall c m, Forall (ranked nf (crank c)) (dtor c m)).
End Ideal.

(** What the Functions hold at the end of a run of the model. *)
Definition holds (s : world) (f : nat) : option (nat * bool) :=
  match nth_error (fns s) f with
  | Some x =>
      match match impl x with PNull => None | PIn => buf x | PHeap i => Some i end with
      | Some i => match nth_error (objs s) i with Some o => Some (cls o, moved o) | None => None end
      | None => None
      end
  | None => None
  end.
Definition contents (s : world) : list (option (nat * bool)) := map (holds s) (seq 0 (length (fns s))).
(** The callable objects a Function points to. *)
Definition points (s : world) (f i : nat) : Prop :=
  exists x, nth_error (fns s) f = Some x /\ (impl x = PHeap i \/ impl x = PIn /\ buf x = Some i).
