(** Model of ke::InlineList's iterators as objects the client keeps (amtl/am-inlinelist.h:113-204): any number of
    iterator and reverse_iterator variables, used in any order with any other calls on any lists. *)
From Verif Require Import Base InlineListModel.

(** An iterator object: its class (true: iterator, false: reverse_iterator) and its iter_
    (am-inlinelist.h:113-116, 147-150). *)
Definition iter := (bool * ptr)%type.
(** The client's iterator variables; there is no default constructor (am-inlinelist.h:119-121), so a variable not
    yet assigned is given a null iter_ here and the specification forbids using it. *)
Definition ivars := nat -> iter.
Definition ivars0 : ivars := fun _ => (true, None).
(** The client's assignment to an iterator variable, by the implicit copy assignment (am-inlinelist.h:113-145). *)
Definition iset (I : ivars) (v : nat) (x : iter) : ivars := fun w => if v =? w then x else I w.

Section InlineIter.
Variable debug : bool.   (* NDEBUG not defined *)

(** begin()/rbegin() (am-inlinelist.h:179-184). *)
Definition it_begin (m : mem) (dir : bool) (l : nat) : outcome iter :=
  do p <- (if dir then rd_next m (Some (Head l)) else rd_prev m (Some (Head l))); Ok (dir, p).
(** end()/rend() (am-inlinelist.h:186-191); the list must exist for the call to be made. *)
Definition it_end (m : mem) (dir : bool) (l : nat) : outcome iter :=
  do a <- chk m (Some (Head l)); Ok (dir, Some a).
(** Prefix ++ (am-inlinelist.h:123-126, 157-160). *)
Definition it_incr (m : mem) (it : iter) : outcome iter :=
  do p <- (if fst it then rd_next m (snd it) else rd_prev m (snd it)); Ok (fst it, p).
(** Postfix ++: (new value, returned iterator) (am-inlinelist.h:127-131, 161-165). *)
Definition it_post (m : mem) (it : iter) : outcome (iter * iter) :=
  let old := it in
  do p <- (if fst it then rd_next m (snd it) else rd_prev m (snd it)); Ok ((fst it, p), old).
(** operator* and operator-> (am-inlinelist.h:132-137, 166-171); the list's own node is not a T. *)
Definition it_get (it : iter) : outcome nat := deref (snd it).
(** operator== (am-inlinelist.h:141-143, 175-177); operator!= is its negation (138-140, 172-174). *)
Definition it_eq (a b : iter) : bool := ptr_eqb (snd a) (snd b).
Definition it_ne (a b : iter) : bool := negb (ptr_eqb (snd a) (snd b)).
(** erase(at): (memory, at afterwards, returned iterator) (am-inlinelist.h:193-204). *)
Definition it_erase (m : mem) (l : nat) (at_ : iter) : outcome (mem * iter * iter) :=
  let next := at_ in
  do (next, _) <- it_post m next;
  do m <- remove debug m l (snd at_);
  let at_ := (fst at_, None) in
  Ok (m, at_, next).

(** Client statements over am-inlinelist.h:80-236; not code of /repo. *)
Inductive cmd :=
| COp (o : op)                             (* any call that takes no iterator *)
| CBegin (v : nat) (dir : bool) (l : nat)  (* v = l.begin(), or l.rbegin() *)
| CEnd (v : nat) (dir : bool) (l : nat)    (* v = l.end(), or l.rend() *)
| CNext (v : nat)                          (* ++v *)
| CPost (v w : nat)                        (* w = v++ *)
| CCopy (v w : nat)                        (* w = v *)
| CGet (v : nat)                           (* read *v *)
| CEq (v w : nat)                          (* v == w, v != w *)
| CErase (v w l : nat).                    (* w = l.erase(v); v and w may be the same variable *)
(** Observable results of those statements (am-inlinelist.h:113-236). *)
Inductive cout := OList (r : out) | ONone | ONode (n : nat) | OCmp (eq ne : bool).

(** One client statement over am-inlinelist.h:113-236. *)
Definition cstep (fuel : nat) (m : mem) (I : ivars) (c : cmd) : outcome (mem * ivars * cout) :=
  match c with
  | COp o => do (m', r) <- step debug fuel m o; Ok (m', I, OList r)
  | CBegin v dir l => do x <- it_begin m dir l; Ok (m, iset I v x, ONone)
  | CEnd v dir l => do x <- it_end m dir l; Ok (m, iset I v x, ONone)
  | CNext v => do x <- it_incr m (I v); Ok (m, iset I v x, ONone)
  | CPost v w => do (x, old) <- it_post m (I v); Ok (m, iset (iset I v x) w old, ONone)
  | CCopy v w => Ok (m, iset I w (I v), ONone)
  | CGet v => do n <- it_get (I v); Ok (m, I, ONode n)
  | CEq v w => Ok (m, I, OCmp (it_eq (I v) (I w)) (it_ne (I v) (I w)))
  | CErase v w l => do (m', x, y) <- it_erase m l (I v); Ok (m', iset (iset I v x) w y, ONone)
  end.
(** A sequence of client statements over am-inlinelist.h:113-236. *)
Fixpoint crun (fuel : nat) (m : mem) (I : ivars) (cs : list cmd) : outcome (mem * ivars * list cout) :=
  match cs with
  | [] => Ok (m, I, [])
  | c :: rest =>
      do (m1, I1, r) <- cstep fuel m I c;
      do (m2, I2, rs) <- crun fuel m1 I1 rest;
      Ok (m2, I2, r :: rs)
  end.
End InlineIter.
