(** Model of amtl/am-raii.h. *)
From Verif Require Import Base.

(** * SaveAndSet (am-raii.h:37-54) *)
(** A program is a sequence of events: entering a scope constructs a SaveAndSet on the stack, leaving it (normally
    or by an exception: the destructor runs either way) destroys the innermost one, and writes may hit any
    location.  T's copy constructor and assignment do not throw. *)
Section Save.
Variable V : Type.
(** Addresses: the T* of am-raii.h:41, 52. *)
Definition loc := nat.
(** The memory location_ points into (am-raii.h:52). *)
Definition memory := loc -> V.
(** Client programs using am-raii.h:37-54; not code of /repo. *)
Inductive sev := Enter (l : loc) (x : V) | Leave | Write (l : loc) (x : V).

(** The assignments through location_ of am-raii.h:45, 48. *)
Definition poke (m : memory) (l : loc) (x : V) : memory := fun k => if k =? l then x else m k.
(** The machine: memory and the stack of live SaveAndSet objects (location_, old_). *)
(** am-raii.h:52-53 for every live SaveAndSet. *)
Definition smachine := (memory * list (loc * V))%type.
Definition sstep (s : smachine) (e : sev) : outcome smachine :=
  let (m, stack) := s in
  match e with
  | Enter l x => let old := m l in Ok (poke m l x, (l, old) :: stack)   (* am-raii.h:41-46 *)
  | Leave =>                                                            (* am-raii.h:47-49 *)
      match stack with
      | [] => Fault BadArg                  (* no scope is open *)
      | (l, old) :: rest => Ok (poke m l old, rest)
      end
  | Write l x => Ok (poke m l x, stack)
  end.
(** A client program using am-raii.h:37-54. *)
Fixpoint srun (s : smachine) (t : list sev) : outcome smachine :=
  match t with [] => Ok s | e :: t' => do s <- sstep s e; srun s t' end.
End Save.
Arguments Enter {V}. Arguments Leave {V}. Arguments Write {V}. Arguments poke {V}. Arguments sstep {V}.
Arguments srun {V}.

(** * StackLinked (am-raii.h:56-74) *)
(** Objects are named; head pointers are named.  An object records its prevp_ (which head) and prev_. *)
(** Objects derived from StackLinked (am-raii.h:57). *)
Definition obj := nat.
(** The T* variables that prevp points to (am-raii.h:60, 72). *)
Definition head := nat.
(** Client programs using am-raii.h:56-74; not code of /repo. *)
Inductive lev := LNew (o : obj) (h : head) | LDelete (o : obj).
(** am-raii.h:72-73 for every live object, and the heads. *)
Record lstate := LState {
  heads : head -> option obj;                      (* the T* each prevp points to *)
  objs : obj -> option (head * option obj)         (* live objects: prevp_, prev_ *)
}.
(** No object of am-raii.h:57 exists, all heads are null. *)
Definition lempty : lstate := LState (fun _ => None) (fun _ => None).
(** The assignments through prevp_ of am-raii.h:64, 68. *)
Definition set_head (s : lstate) (h : head) (p : option obj) : lstate :=
  LState (fun k => if k =? h then p else heads s k) (objs s).
(** The members prevp_ and prev_ (am-raii.h:60-62, 72-73). *)
Definition set_obj (s : lstate) (o : obj) (x : option (head * option obj)) : lstate :=
  LState (heads s) (fun k => if k =? o then x else objs s k).
(** The pointer comparison of am-raii.h:67. *)
Definition opt_eqb (a b : option nat) : bool :=
  match a, b with Some x, Some y => x =? y | None, None => true | _, _ => false end.

Definition lstep (debug : bool) (s : lstate) (e : lev) : outcome lstate :=
  match e with
  | LNew o h =>                                                    (* am-raii.h:60-65 *)
      match objs s o with
      | Some _ => Fault BadArg
      | None => Ok (set_head (set_obj s o (Some (h, heads s h))) h (Some o))
      end
  | LDelete o =>                                                   (* am-raii.h:66-69 *)
      match objs s o with
      | None => Fault DoubleFree
      | Some (h, prev) =>
          do _ <- assert_ debug (opt_eqb (heads s h) (Some o));
          Ok (set_obj (set_head s h prev) o None)
      end
  end.
(** A client program using am-raii.h:56-74. *)
Fixpoint lrun (debug : bool) (s : lstate) (t : list lev) : outcome lstate :=
  match t with [] => Ok s | e :: t' => do s <- lstep debug s e; lrun debug s t' end.

(** Following prev_ links from a pointer: the objects met, or a fault on a dead one; [n] bounds the walk. *)
Fixpoint walk (n : nat) (s : lstate) (p : option obj) : outcome (list obj) :=
  match p with
  | None => Ok []
  | Some o =>
    match n with
    | O => Diverge
    | S n =>
      match objs s o with
      | None => Fault UseAfterFree
      | Some (_, prev) => do l <- walk n s prev; Ok (o :: l)
      end
    end
  end.

(** * ScopeGuard (am-raii.h:76-116) *)
(** Guards are named; a guard has its callback (None once moved from) and the cancelled_ flag. *)
Section Guard.
Variable C : Type.
(** ScopeGuard objects (am-raii.h:77). *)
Definition gvar := nat.
(** Client programs using am-raii.h:76-116; not code of /repo. *)
Inductive gev :=
| GMake (v : gvar) (c : C) (moves : nat)   (* auto v = MakeScopeGuard(c): the return value may be moved any number
                                              of times on its way into v (pre-C++17 compilers may or may not
                                              elide) *)
| GMove (v u : gvar)                       (* ScopeGuard v(std::move(u)) *)
| GCancel (v : gvar)
| GDestroy (v : gvar).                     (* v goes out of scope *)

(** callback_ and cancelled_ (am-raii.h:108-109). *)
Record guard := Guard { callback : option C; cancelled : bool }.
(** The log of callback invocations is part of the state. *)
(** The ScopeGuards of a program (am-raii.h:108-109) and the callbacks run so far. *)
Record gstate := GState { guards : gvar -> option guard; log : list C }.
(** No ScopeGuard (am-raii.h:77) exists. *)
Definition gempty : gstate := GState (fun _ => None) [].
Definition set_guard (s : gstate) (v : gvar) (g : option guard) : gstate :=
  GState (fun k => if k =? v then g else guards s k) (log s).

(** am-raii.h:84-89 ScopeGuard(ScopeGuard&& other): (new guard, other afterwards). *)
Definition move_guard (g : guard) : guard * guard :=
  (Guard (callback g) (cancelled g), Guard None true).
(** am-raii.h:91-94 ~ScopeGuard *)
Definition destroy_guard (s : gstate) (g : guard) : outcome gstate :=
  if cancelled g then Ok s
  else match callback g with
       | Some c => Ok (GState (guards s) (log s ++ [c]))
       | None => Fault MovedFrom
       end.
(** A temporary moved [n] times: each source is destroyed after being moved from. *)
(** The temporaries between am-raii.h:115 and the variable that MakeScopeGuard initialises. *)
Fixpoint settle (n : nat) (s : gstate) (g : guard) : outcome (gstate * guard) :=
  match n with
  | O => Ok (s, g)
  | S n => let (g', old) := move_guard g in do s <- destroy_guard s old; settle n s g'
  end.

Definition gstep (s : gstate) (e : gev) : outcome gstate :=
  match e with
  | GMake v c n =>
      match guards s v with
      | Some _ => Fault BadArg
      | None => do (s, g) <- settle n s (Guard (Some c) false); Ok (set_guard s v (Some g))
      end
  | GMove v u =>
      match guards s v, guards s u with
      | None, Some g => let (g', old) := move_guard g in Ok (set_guard (set_guard s v (Some g')) u (Some old))
      | Some _, _ => Fault BadArg
      | _, None => Fault UseAfterFree
      end
  | GCancel v =>
      match guards s v with
      | None => Fault UseAfterFree
      | Some g => Ok (set_guard s v (Some (Guard (callback g) true)))   (* am-raii.h:96-98 *)
      end
  | GDestroy v =>
      match guards s v with
      | None => Fault DoubleFree
      | Some g => do s <- destroy_guard s g; Ok (set_guard s v None)
      end
  end.
Fixpoint grun (s : gstate) (t : list gev) : outcome gstate :=
  match t with [] => Ok s | e :: t' => do s <- gstep s e; grun s t' end.
End Guard.
Arguments GMake {C}. Arguments GMove {C}. Arguments GCancel {C}. Arguments GDestroy {C}.
Arguments Guard {C}. Arguments callback {C}. Arguments cancelled {C}. Arguments GState {C}.
Arguments guards {C}. Arguments log {C}. Arguments gempty {C}. Arguments set_guard {C}.
Arguments move_guard {C}. Arguments destroy_guard {C}. Arguments settle {C}. Arguments gstep {C}.
Arguments grun {C}.

(** * ReturnAndVoid (am-raii.h:118-125) *)
Definition return_and_void {V} (dflt : V) (m : loc -> V) (l : loc) : V * (loc -> V) :=
  let saved := m l in (saved, poke m l dflt).
