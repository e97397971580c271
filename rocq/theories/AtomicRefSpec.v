(** Specification of thread-safe reference counting and of AtomicRef. *)
From Verif Require Import Base AtomicRefModel.
Local Open Scope N_scope.

(** Cells an operation in progress works on. *)
Definition uses (p : pc) (c : nat) : Prop :=
  match p with
  | LkLoad d _ | LkCas d _ _ | CritAdd d _ _ | UnA d _ _ | UnB d _ _ _ | UnStore d _ _ | CtAdd d _ => d = c
  | _ => False
  end.
(** Obligations of the clients (and of the allocator, for ANew). *)
Definition allowed (s : state) (e : event) : Prop :=
  match e with
  | ECont t => exists th, nth_error (threads s) t = Some th /\ tpc th <> Idle
  | EStart t a =>
      exists th, nth_error (threads s) t = Some th /\ tpc th = Idle /\
      match a with
      | ANew p => hp s p = None /\ p <> 0 /\ p mod 8 = 0
      | AAddRef p | ARelease p => In p (held th)
      | AGive p u => In p (held th) /\ (u < length (threads s))%nat
      | AGet c => exists w, nth_error (cells s) c = Some (CLive w)
      | ASet c p => (exists w, nth_error (cells s) c = Some (CLive w)) /\ (p = 0 \/ In p (held th))
      | ACtor c p => nth_error (cells s) c = Some CNone /\ (p = 0 \/ In p (held th))
      | ADtor c => (exists w, nth_error (cells s) c = Some (CLive w)) /\
                   (forall u th, nth_error (threads s) u = Some th -> ~ uses (tpc th) c)
      end
  end.
Inductive legal (vt : variant) (debug : bool) : state -> list event -> Prop :=
| legal_nil s : legal vt debug s []
| legal_cons s e es : allowed s e -> (forall s' o, step vt debug s e = Ok (s', o) -> legal vt debug s' es) -> legal vt debug s (e :: es).
(** States of some legal execution, any number of threads, cells, steps, any interleaving. *)
Definition reachable (vt : variant) (debug : bool) (s : state) : Prop :=
  exists n m es tr, legal vt debug (init n m) es /\ run vt debug (init n m) es = Ok (s, tr).

(** References to the object at [a]: owned by threads, carried by operations in progress, stored in AtomicRefs. *)
Definition refto (a b : N) : nat := if (a =? b) && negb (b =? 0) then 1 else 0.
Definition pc_refs (a : N) (p : pc) : nat :=
  match p with
  | RelSub b _ => refto a b
  | UnA _ o v | UnB _ o v _ | UnStore _ o v => refto a (target o v)
  | DtA w => refto a (untagged w)
  | _ => 0%nat
  end.
Definition cell_refs (a : N) (x : cell) : nat := match x with CLive w => refto a (untagged w) | _ => 0%nat end.
Definition sum (l : list nat) : nat := fold_right Nat.add 0%nat l.
Definition handles (s : state) (a : N) : nat :=
  (sum (map (fun th => count_occ N.eq_dec (held th) a + pc_refs a (tpc th)) (threads s)) + sum (map (cell_refs a) (cells s)))%nat.
(** Operations that are creating or deleting the object at [a]. *)
Definition owner (a : N) (p : pc) : nat :=
  match p with NewP b | RelAssert b _ | RelDel b _ => refto a b | _ => 0%nat end.
Definition owners (s : state) (a : N) : nat := sum (map (fun th => owner a (tpc th)) (threads s)).

(** The books: the count of a live object is the number of references to it; nobody refers to a freed object; every
    object created is either alive (at one address) or deleted, never both, and was deleted at most once. *)
Definition books (s : state) : Prop :=
  (forall a ob, hp s a = Some ob -> cnt ob = handles s a) /\
  (forall a, hp s a = None -> handles s a = 0%nat) /\
  (forall a b oa ob, hp s a = Some oa -> hp s b = Some ob -> ser oa = ser ob -> a = b) /\
  (forall n, (n < fresh s)%nat <-> In n (deleted s) \/ exists a ob, hp s a = Some ob /\ ser ob = n) /\
  (forall a ob, hp s a = Some ob -> ~ In (ser ob) (deleted s)) /\
  NoDup (deleted s).
Definition quiescent (s : state) : Prop := forall t th, nth_error (threads s) t = Some th -> tpc th = Idle.

(** ** Linearizability of one AtomicRef as a register holding a pointer. *)
Inductive levent :=
| LInv (t : nat) (o : rop) | LRes (t : nat) (o : rop) (r : N)
| LPt (t : nat) (o : rop) (r : N).   (* the moment at which the operation takes effect *)
(** Sequential register: get returns the current value; assignment returns nothing (0) and sets it. *)
Inductive reg : N -> list levent -> N -> Prop :=
| reg_nil v : reg v [] v
| reg_get v t es v' : reg v es v' -> reg v (LPt t OGet v :: es) v'
| reg_set v t p es v' : reg p es v' -> reg v (LPt t (OSet p) 0 :: es) v'
| reg_inv v t o es v' : reg v es v' -> reg v (LInv t o :: es) v'
| reg_res v t o r es v' : reg v es v' -> reg v (LRes t o r :: es) v'.
(** Each thread alternates: invocation, effect, response (with the same result); possibly pending at the end. *)
Inductive phase := PIdle | PInv (o : rop) | PDone (o : rop) (r : N).
Inductive alternates (t : nat) : phase -> list levent -> phase -> Prop :=
| alt_nil p : alternates t p [] p
| alt_inv o es p : alternates t (PInv o) es p -> alternates t PIdle (LInv t o :: es) p
| alt_pt o r es p : alternates t (PDone o r) es p -> alternates t (PInv o) (LPt t o r :: es) p
| alt_res o r es p : alternates t PIdle es p -> alternates t (PDone o r) (LRes t o r :: es) p
| alt_other p e es q : match e with LInv u _ | LRes u _ _ | LPt u _ _ => u <> t end ->
    alternates t p es q -> alternates t p (e :: es) q.
(** The observable part. *)
Fixpoint visible (c : nat) (es : list levent) : list obs :=
  match es with
  | [] => []
  | LInv t o :: r => Inv t c o :: visible c r
  | LRes t o x :: r => Res t c o x :: visible c r
  | LPt _ _ _ :: r => visible c r
  end.
Definition on_cell (c : nat) (x : obs) : bool := match x with Inv _ d _ | Res _ d _ _ => Nat.eqb d c end.
(** The observations [tr] on cell [c], starting with value [v0] and ending with [v1] in the register, are linearizable. *)
Definition linearizable (c : nat) (v0 v1 : N) (tr : list obs) : Prop :=
  exists es, visible c es = filter (on_cell c) tr /\ reg v0 es v1 /\ forall t, exists p, alternates t PIdle es p.
(** An operation on cell [c] is in progress (including the trailing Release of an assignment). *)
Definition busy (p : pc) (c : nat) : Prop :=
  match p with
  | RelSub _ (Some (d, _)) | RelAssert _ (Some (d, _)) | RelDel _ (Some (d, _)) => d = c
  | _ => uses p c
  end.
(** Inside the critical section of cell [c]: lock() has returned and unlock() has not. *)
Definition in_section (p : pc) (c : nat) : Prop :=
  match p with CritAdd d _ _ | UnA d _ _ | UnB d _ _ _ | UnStore d _ _ => d = c | _ => False end.
