(** Legal executions of the weak-memory machine. *)
From Verif Require Import Base AtomicRefModel AtomicRefSpec WeakModel.
Local Open Scope N_scope.

(** Reading message [i]: no later message is in the reader's view (coherence). *)
Definition read_ok (k : view) (h : history) (i : nat) : Prop :=
  (i < length h)%nat /\ forall j m, (j < i)%nat -> nth_error h j = Some m -> k (mid m) = false.
(** Writing immediately before message [i - 1] of the history: that one was not written by a read-modify-write, which
    would have had to read its immediate predecessor. *)
Definition slot_free (h : history) (i : nat) : Prop :=
  match i with O => True | S j => forall m, nth_error h j = Some m -> mrmw m = false end.
Definition rmw_ok (k : view) (h : history) (i : nat) : Prop := read_ok k h i /\ slot_free h i.
(** A compare-exchange reads some message; if the values agree it writes right after it. *)
Definition cas_ok (k : view) (h : history) (i : nat) (old : N) : Prop :=
  read_ok k h i /\ forall m, nth_error h i = Some m -> mval m = old -> slot_free h i.
(** A store is placed after everything in the writer's view. *)
Definition store_ok (k : view) (h : history) (i : nat) : Prop :=
  (i <= length h)%nat /\ (forall j m, (j < i)%nat -> nth_error h j = Some m -> k (mid m) = false) /\ slot_free h i.

Definition obj_hist (w : wstate) (a : N) (P : history -> Prop) : Prop := forall ob, wheap w a = Some ob -> P (counts w (wser ob)).
Definition cell_hist (w : wstate) (c : nat) (P : history -> Prop) : Prop :=
  forall e us h, nth_error (wcells w) c = Some (WLive e us h) -> P h.

(** The choice [i] made in a step of a thread at [p] with view [k]. *)
Definition choice_ok (w : wstate) (p : pc) (k : view) (i : nat) : Prop :=
  match p with
  | NewP a | Add a | RelSub a _ | CtAdd _ a => obj_hist w a (fun h => rmw_ok k h i)
  | CritAdd _ o v => obj_hist w (target o v) (fun h => rmw_ok k h i)
  | RelAssert a _ => obj_hist w a (fun h => read_ok k h i)
  | LkLoad c _ | UnA c _ _ | UnB c _ _ _ => cell_hist w c (fun h => read_ok k h i)
  | LkCas c _ old => cell_hist w c (fun h => cas_ok k h i old)
  | UnStore c _ _ => cell_hist w c (fun h => store_ok k h i)
  | Idle | RelDel _ _ | DtA _ => True
  end.
(** An operation is in progress on cell [c]. *)
Definition wuses (p : pc) (c : nat) : Prop :=
  match p with
  | LkLoad d _ | LkCas d _ _ | CritAdd d _ _ | UnA d _ _ | UnB d _ _ _ | UnStore d _ _ | CtAdd d _ => d = c
  | _ => False
  end.
(** The AtomicRef [c] exists, and the thread with view [k] knows it: its construction happens before. *)
Definition known_cell (w : wstate) (k : view) (c : nat) : Prop :=
  exists e us h, nth_error (wcells w) c = Some (WLive e us h) /\ k e = true.

Section Legal.
(** [reuse]: may the allocator hand out an address it has handed out before?  [ops]: are get() and operator= used? *)
Variables debug cas_acquire reuse ops : bool.

Definition wallowed (w : wstate) (x : wevent) : Prop :=
  match x with
  | WCont t i => exists th, nth_error (wths w) t = Some th /\ wpc th <> Idle /\ choice_ok w (wpc th) (know th) i
  | WStart t a i =>
      exists th, nth_error (wths w) t = Some th /\ wpc th = Idle /\
      match a with
      | WTouch p => In p (wheld th)
      | WSync u => (u < length (wths w))%nat
      | WDo (ANew p) => wheap w p = None /\ p <> 0 /\ p mod 8 = 0 /\ (reuse = false -> used w p = None)
      | WDo (AAddRef p) | WDo (ARelease p) => In p (wheld th)
      | WDo (AGive p u) => In p (wheld th) /\ (u < length (wths w))%nat
      | WDo (AGet c) => ops = true /\ known_cell w (know th) c
      | WDo (ASet c p) => ops = true /\ known_cell w (know th) c /\ (p = 0 \/ In p (wheld th))
      | WDo (ACtor c p) => nth_error (wcells w) c = Some WNone /\ (p = 0 \/ In p (wheld th))
      | WDo (ADtor c) =>
          exists e us h, nth_error (wcells w) c = Some (WLive e us h) /\
            know th e = true /\ (forall x, In x us -> know th x = true) /\ read_ok (know th) h i /\
            (forall u thu, nth_error (wths w) u = Some thu -> ~ wuses (wpc thu) c)
      end
  end.
Inductive wlegal : wstate -> list wevent -> Prop :=
| wlegal_nil w : wlegal w []
| wlegal_cons w x xs : wallowed w x -> (forall w' o, wstep debug cas_acquire w x = Ok (w', o) -> wlegal w' xs) -> wlegal w (x :: xs).
End Legal.

(** No operation is in progress. *)
Definition at_rest (w : wstate) : Prop := forall t th, nth_error (wths w) t = Some th -> wpc th = Idle.
(** References to the object at [a]: owned by threads, and stored (latest in modification order) in AtomicRefs. *)
Definition latest_is (a : N) (x : wcell) : nat := match x with WLive _ _ (m :: _) => refto a (mval m) | _ => 0%nat end.
Definition wrefs (w : wstate) (a : N) : nat :=
  (sum (map (fun th => count_occ N.eq_dec (wheld th) a) (wths w)) + sum (map (latest_is a) (wcells w)))%nat.
(** Every object created is alive, at one address, or was deleted, once. *)
Definition accounted (w : wstate) : Prop :=
  (forall n, (n < wfresh w)%nat <-> In n (wdeleted w) \/ exists a ob, wheap w a = Some ob /\ wser ob = n) /\
  (forall a ob, wheap w a = Some ob -> ~ In (wser ob) (wdeleted w)) /\
  (forall a b oa ob, wheap w a = Some oa -> wheap w b = Some ob -> wser oa = wser ob -> a = b) /\
  NoDup (wdeleted w).
(** Nobody is working on AtomicRef [c]. *)
Definition unused (w : wstate) (c : nat) : Prop := forall t th, nth_error (wths w) t = Some th -> ~ busy (wpc th) c.
