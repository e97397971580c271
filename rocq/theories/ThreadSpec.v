(** Specification of NewThread. *)
From Verif Require Import Base ThreadModel.
Local Open Scope nat_scope.

(** The arguments the callable has to get: values as they were when NewThread was called ([before]); variables passed with
    std::ref as they are when it is invoked ([now]); any other object itself. *)
Definition passed (before now : memory) (a : arg) : N :=
  match a with AVal v => v | AVar l => before l | ARef l => now l | ABind b => b end.
Definition plain (a : arg) : Prop := match a with ABind _ => False | _ => True end.
(** The invocations by thread [t] in an execution. *)
Definition by_thread (t : nat) (tr : list obs) : list obs := filter (fun o => match o with Invoked u _ _ _ => u =? t end) tr.
Definition turns_of (t : nat) (es : list event) : nat := length (filter (fun e => match e with ETurn u => u =? t | _ => false end) es).
(** Names the system takes as they are. *)
Definition takes (p : platform) (n : chars) : Prop :=
  match p with OnLinux => length n <= 15 | OnMac => length n <= 63 | OnWindows o => found o = true /\ has_fn o = true /\ from_bytes o n <> None end.
(** The name in the system's encoding. *)
Definition as_shown (p : platform) (n : chars) : chars :=
  match p with OnWindows o => match from_bytes o n with Some u => u | None => [] end | _ => n end.
(** Nobody renames thread [t]. *)
Definition renames (t : nat) (e : event) : Prop := match e with EOwn u _ | EOther u _ => u = t | _ => False end.
