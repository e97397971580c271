(** refcount_ as the machine has it: uintptr_t (amtl/am-refcounting.h:135, 184), an unsigned integer of [width] bits that wraps.

    RefcountModel.v counts without bound.  The functions that touch refcount_ are transcribed again here, and [stepW] is [step] of
    RefcountModel.v over them; everything else, and the simplifications, are those of RefcountModel.v.  [RawAddRef] is a call of
    AddRef() by the client whose reference is recorded nowhere. *)
From Verif Require Import Base RefcountModel.

Section Width.
Variable debug : bool.
Variable width : nat.

(** refcount_++ (am-refcounting.h:122-124, 169-172). *)
Definition obj_AddRefW (h : heap) (o : nat) : outcome heap :=
  do ob <- get_alive h o; Ok (set_obj h o (Obj ((rc ob + 1) mod 2 ^ width) Alive (flds ob))).
(** am-refcounting.h:308-311. *)
Definition AddRefW (h : heap) (p : option nat) : outcome heap :=
  match p with Some o => obj_AddRefW h o | None => Ok h end.
(** assert(refcount_ > 0); if (--refcount_ == 0) delete this (am-refcounting.h:125-129, 173-181). *)
Fixpoint obj_ReleaseW (fuel : nat) (h : heap) (o : nat) : outcome heap :=
  match fuel with
  | O => Diverge
  | S f =>
      do ob <- get_alive h o;
      do _ <- assert_ debug (0 <? rc ob);
      let n := (rc ob + (2 ^ width - 1)) mod 2 ^ width in
      if n =? 0 then
        do h <- release_list (obj_ReleaseW f) (set_obj h o (Obj 0 Dying (flds ob))) (rev (flds ob));
        finish h o
      else Ok (set_obj h o (Obj n Alive (flds ob)))
  end.
(** am-refcounting.h:312-315. *)
Definition ReleaseW (h : heap) (p : option nat) : outcome heap :=
  match p with Some o => obj_ReleaseW (S (length (objs h))) h o | None => Ok h end.

(** The operations of RefcountModel.v (am-refcounting.h:51-318). *)
Definition stepW (s : state) (o : op) : outcome state :=
  match o with
  | CtorNull v => new_var s v (VRef None)
  | CtorNew v k =>
      let '(s, n) := alloc s k in
      do s <- new_var s v (VRef (Some n)); lift s (AddRefW (hp s) (Some n))
  | CtorRaw v l | CtorCopy v l =>
      do p <- read s l; do s <- new_var s v (VRef p); lift s (AddRefW (hp s) p)
  | CtorMove v l => do p <- read s l; do s <- new_var s v (VRef p); write s l None
  | CtorAlready v w =>
      do p <- get_al s w; do s <- set_var s w (Some (VAl None)); new_var s v (VRef p)
  | AssignNull l => do p <- read s l; do s <- lift s (ReleaseW (hp s) p); write s l None
  | AssignNew l k =>
      let '(s, n) := alloc s k in
      do p <- read s l; do s <- lift s (ReleaseW (hp s) p);
      do s <- write s l (Some n); do q <- read s l; lift s (AddRefW (hp s) q)
  | AssignRaw l m =>
      do q <- read s m;
      do p <- read s l; do s <- lift s (ReleaseW (hp s) p);
      do s <- write s l q; do q <- read s l; lift s (AddRefW (hp s) q)
  | AssignCopy l m =>
      do p <- read s l; do s <- lift s (ReleaseW (hp s) p);
      do q <- read s m; do s <- write s l q; do q <- read s l; lift s (AddRefW (hp s) q)
  | AssignMove l m =>
      do p <- read s l; do s <- lift s (ReleaseW (hp s) p);
      do q <- read s m; do s <- write s l q; write s m None
  | AssignAlready l w =>
      do p <- read s l; do s <- lift s (ReleaseW (hp s) p);
      do q <- get_al s w; do s <- set_var s w (Some (VAl None)); write s l q
  | Take v l => do p <- read s l; do s <- write s l None; new_var s v (VAl p)
  | AlNull v => new_var s v (VAl None)
  | AlCopy v w => do p <- get_al s w; do s <- new_var s v (VAl p); lift s (AddRefW (hp s) p)
  | AlMove v w => do p <- get_al s w; do s <- new_var s v (VAl p); set_var s w (Some (VAl None))
  | AlTake v w => do p <- get_al s w; do s <- set_var s w (Some (VAl None)); new_var s v (VRaw p)
  | Adopt v w => do p <- get_raw s w; do s <- set_var s w None; new_var s v (VAl p)
  | Destroy v =>
      do w <- get_var s v;
      match w with
      | VRef p | VAl p => do s <- lift s (ReleaseW (hp s) p); set_var s v None
      | VRaw _ => Fault Leak
      end
  end.


(** A program; RawAddRef l: l->AddRef() (am-refcounting.h:122-124, 236-238). *)
Inductive opW := Op (o : op) | RawAddRef (l : loc).
(** One statement (am-refcounting.h:51-318). *)
Definition stepW1 (s : state) (o : opW) : outcome state :=
  match o with
  | Op o => stepW s o
  | RawAddRef l => do p <- read s l; match p with Some _ => lift s (AddRefW (hp s) p) | None => Fault NullDeref end
  end.
Fixpoint runW (s : state) (os : list opW) : outcome state :=
  match os with [] => Ok s | o :: os => do s <- stepW1 s o; runW s os end.
End Width.
