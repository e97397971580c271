(** Specification of reference counting under re-entrant destructors. *)
From Verif Require Import Base ReenterModel.

(** Programs that name only RefPtrs that exist: [ng] globals, [nm] members; [this] tells whether this-> may be used. *)
Definition path_ok (ng nm : nat) (this : bool) (p : path) : Prop :=
  match p with PG v => v < ng | PThis j => this = true /\ j < nm end.
Inductive cmd_ok (ng nm : nat) (this : bool) : cmd -> Prop :=
| ok_null l : path_ok ng nm this l -> cmd_ok ng nm this (Null l)
| ok_new l c ms : path_ok ng nm this l -> Forall (path_ok ng nm this) ms -> length ms = nm -> cmd_ok ng nm this (New l c ms)
| ok_copy l m : path_ok ng nm this l -> path_ok ng nm this m -> cmd_ok ng nm this (Copy l m)
| ok_raw l m : path_ok ng nm this l -> path_ok ng nm this m -> cmd_ok ng nm this (CopyRaw l m)
| ok_move l m : path_ok ng nm this l -> path_ok ng nm this m -> cmd_ok ng nm this (Move l m)
| ok_hold m body : path_ok ng nm this m -> (forall k, In k body -> cmd_ok ng nm this k) -> cmd_ok ng nm this (Hold m body)
| ok_store v j m : v < ng -> j < nm -> path_ok ng nm this m -> cmd_ok ng nm this (Store v j m).
Definition program (ng nm : nat) (script : nat -> list cmd) (prog : list cmd) : Prop :=
  (forall c k, In k (script c) -> cmd_ok ng nm true k) /\ (forall k, In k prog -> cmd_ok ng nm false k).

(** The handles on [o]: global RefPtrs, and members of live objects. *)
Definition points (o : nat) (p : option nat) : nat := match p with Some q => if o =? q then 1 else 0 | None => 0 end.
Definition sum (l : list nat) : nat := fold_right Nat.add 0 l.
Definition handles (s : world) (o : nat) : nat :=
  sum (map (points o) (globs s)) +
  sum (map (fun ob => match st ob with Alive => sum (map (points o) (mem ob)) | _ => 0 end) (objs s)).

(** The books balance: every object ever created is either alive, with as many references counted as there are handles, at
    least one; or destroyed, exactly once, and no handle refers to it. *)
Definition balanced (s : world) : Prop :=
  (forall o ob, nth_error (objs s) o = Some ob ->
     (st ob = Alive /\ rc ob = handles s o /\ 0 < handles s o /\ ~ In o (log s)) \/
     (st ob = Dead /\ handles s o = 0 /\ In o (log s))) /\
  (forall o, 0 < handles s o -> o < length (objs s)) /\
  (forall o, In o (log s) -> o < length (objs s)) /\
  NoDup (log s).

(** A static discipline.  Every class has a rank, and every RefPtr a level: it only ever holds objects of classes of at most
    that rank.  A destructor uses only global RefPtrs of a level below the rank of its class, and its own members (of level at
    most that rank); nothing is copied to itself, and no raw pointers or members of other objects are assigned. *)
Section Layers.
Variables (rank glev : nat -> nat) (mlev : nat -> nat -> nat).
Definition lev (this : option nat) (p : path) : nat :=
  match p with PG v => glev v | PThis j => match this with Some c => mlev c j | None => 0 end end.
Definition allowed (this : option nat) (p : path) : Prop :=
  match p with PG v => match this with Some c => glev v < rank c | None => True end | PThis _ => True end.
Inductive layered_cmd (this : option nat) : cmd -> Prop :=
| lay_null l : allowed this l -> layered_cmd this (Null l)
| lay_new l c ms : allowed this l -> rank c <= lev this l ->
    (forall j m, nth_error ms j = Some m -> allowed this m /\ lev this m <= mlev c j) -> layered_cmd this (New l c ms)
| lay_copy l m : allowed this l -> allowed this m -> lev this m <= lev this l -> l <> m -> layered_cmd this (Copy l m)
| lay_move l m : allowed this l -> allowed this m -> lev this m <= lev this l -> l <> m -> layered_cmd this (Move l m)
| lay_hold m body : allowed this m -> (forall k, In k body -> layered_cmd this k) -> layered_cmd this (Hold m body).
Definition layered (nm : nat) (script : nat -> list cmd) (prog : list cmd) : Prop :=
  (forall c j, j < nm -> mlev c j <= rank c) /\
  (forall c k, In k (script c) -> layered_cmd (Some c) k) /\ (forall k, In k prog -> layered_cmd None k).
End Layers.
