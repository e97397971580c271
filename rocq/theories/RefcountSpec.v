(** Specification of reference counting: counting handles. *)
From Verif Require Import Base RefcountModel.

Definition ptr_of (w : var) : option nat := match w with VRef p | VAl p | VRaw p => p end.
Definition alive (s : state) (o : nat) : Prop := exists ob, nth_error (objs (hp s)) o = Some ob /\ st ob = Alive.
Definition created (s : state) (o : nat) : Prop := o < length (objs (hp s)).
(** What the handle at a place holds; [None]: there is no handle there. *)
Definition content (s : state) (l : loc) : option (option nat) :=
  match l with
  | LVar v => match nth_error (vars s) v with Some (Some w) => Some (ptr_of w) | _ => None end
  | LFld y j =>
      match nth_error (objs (hp s)) y with
      | Some ob => match st ob with Alive => nth_error (flds ob) j | _ => None end
      | None => None
      end
  end.
Definition kind (s : state) (v : nat) : option nat :=
  match nth_error (vars s) v with
  | Some (Some (VRef _)) => Some 0 | Some (Some (VAl _)) => Some 1 | Some (Some (VRaw _)) => Some 2
  | _ => None
  end.
Definition is_refptr (s : state) (l : loc) : Prop :=
  match l with LVar v => kind s v = Some 0 | LFld _ _ => content s l <> None end.
Definition unused (s : state) (v : nat) : Prop := nth_error (vars s) v = Some None.

(** Number of handles to [o]: in variables, and in the members of live objects. *)
Definition is_ref (o : nat) (p : option nat) : nat := match p with Some q => if o =? q then 1 else 0 | None => 0 end.
Definition sum (l : list nat) : nat := fold_right Nat.add 0 l.
Definition var_refs (s : state) (o : nat) : nat :=
  sum (map (fun x => match x with Some w => is_ref o (ptr_of w) | None => 0 end) (vars s)).
Definition member_refs (os : list obj) (o : nat) : nat :=
  sum (map (fun ob => match st ob with Alive => sum (map (is_ref o) (flds ob)) | _ => 0 end) os).
Definition handles (s : state) (o : nat) : nat := var_refs s o + member_refs (objs (hp s)) o.

(** The books balance: every object ever created is alive exactly while some handle refers to it, its count is the
    number of handles, and the destroyed objects are exactly those logged, once each. *)
Definition balanced (s : state) : Prop :=
  (forall o, created s o ->
     exists ob, nth_error (objs (hp s)) o = Some ob /\
       ((0 < handles s o /\ st ob = Alive /\ rc ob = handles s o /\ ~ In o (log (hp s))) \/
        (handles s o = 0 /\ st ob = Dead /\ In o (log (hp s))))) /\
  (forall o, 0 < handles s o -> created s o) /\
  (forall o, In o (log (hp s)) -> created s o) /\
  NoDup (log (hp s)).

(** [o] is reachable from the variables by a path that does not use the handle at [x]. *)
Inductive reach (s : state) (x : loc) : nat -> Prop :=
| reach_var v o : LVar v <> x -> content s (LVar v) = Some (Some o) -> reach s x o
| reach_fld y j o : reach s x y -> LFld y j <> x -> content s (LFld y j) = Some (Some o) -> reach s x o.
(** The RefPtr at [l] stays in existence whatever happens to the handle at [x]. *)
Definition secure (s : state) (x l : loc) : Prop :=
  is_refptr s l /\ match l with LVar _ => True | LFld y _ => reach s x y end.

(** Caller obligations. *)
Definition pre (s : state) (o : op) : Prop :=
  match o with
  | CtorNull v | CtorNew v _ | AlNull v => unused s v
  | CtorRaw v l | CtorCopy v l | CtorMove v l | Take v l => unused s v /\ is_refptr s l
  | CtorAlready v w | AlCopy v w | AlMove v w | AlTake v w => unused s v /\ kind s w = Some 1
  | Adopt v w => unused s v /\ kind s w = Some 2
  | AssignNull l | AssignNew l _ => secure s l l
  | AssignRaw l m => secure s l l /\ is_refptr s m /\ (forall q, content s m = Some (Some q) -> reach s l q)
  | AssignCopy l m => secure s l l /\ secure s l m /\ l <> m
  | AssignMove l m => secure s l l /\ secure s l m
  | AssignAlready l w => secure s l l /\ kind s w = Some 1
  | Destroy v => kind s v = Some 0 \/ kind s v = Some 1
  end.

(** Handles written by an operation (last write first) and what they then hold. *)
Definition writes (s : state) (o : op) : list (loc * option (option nat)) :=
  let val l := match content s l with Some p => p | None => None end in
  match o with
  | CtorNull v | AlNull v => [(LVar v, Some None)]
  | CtorNew v _ => [(LVar v, Some (Some (length (objs (hp s)))))]
  | CtorRaw v l | CtorCopy v l => [(LVar v, Some (val l))]
  | CtorMove v l | Take v l => [(l, Some None); (LVar v, Some (val l))]
  | CtorAlready v w | AlMove v w | AlTake v w => [(LVar w, Some None); (LVar v, Some (val (LVar w)))]
  | AlCopy v w => [(LVar v, Some (val (LVar w)))]
  | Adopt v w => [(LVar w, None); (LVar v, Some (val (LVar w)))]
  | AssignNull l => [(l, Some None)]
  | AssignNew l _ => [(l, Some (Some (length (objs (hp s)))))]
  | AssignRaw l m | AssignCopy l m => [(l, Some (val m))]
  | AssignMove l m => [(m, Some None); (l, Some (val m))]
  | AssignAlready l w => [(LVar w, Some None); (l, Some (val (LVar w)))]
  | Destroy v => [(LVar v, None)]
  end.
Definition loc_eqb (a b : loc) : bool :=
  match a, b with
  | LVar i, LVar j => i =? j
  | LFld y i, LFld z j => (y =? z) && (i =? j)
  | _, _ => false
  end.
Fixpoint written (ws : list (loc * option (option nat))) (l : loc) : option (option (option nat)) :=
  match ws with
  | [] => None
  | (m, p) :: r => if loc_eqb m l then Some p else written r l
  end.
(** After the step, every handle holds what was written to it, or what it held before; members of destroyed objects
    are gone; new objects have null members. *)
Definition effect (s : state) (o : op) (s' : state) : Prop :=
  forall l, match l with LVar _ => True | LFld y _ => created s y /\ alive s' y end ->
    content s' l = match written (writes s o) l with Some p => p | None => content s l end.

(** Histories in which every operation meets its obligations. *)
Inductive legal (debug : bool) : state -> list op -> Prop :=
| legal_nil s : legal debug s []
| legal_cons s o ops : pre s o -> (forall s', step debug s o = Ok s' -> legal debug s' ops) -> legal debug s (o :: ops).
Definition reachable (debug : bool) (s : state) : Prop :=
  exists n ops, legal debug (init n) ops /\ run debug (init n) ops = Ok s.
(** The reference count of every object and the sequence of destructions. *)
Definition counts (s : state) : list (nat * ostate) * list nat :=
  (map (fun ob => (rc ob, st ob)) (objs (hp s)), log (hp s)).
