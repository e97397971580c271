(** What SharedLib must do, in terms of references and system calls. *)
From Verif Require Import Base RefcountModel RefcountSpec SharedLibModel.
Local Open Scope nat_scope.

(** Caller obligations, as for the refcounting operations. *)
Definition ev_pre (x : world) (e : event) : Prop :=
  match e with
  | Ref o => pre (rs x) o
  | FromHandle v _ | FromPath v _ => unused (rs x) v
  | Open v tmp _ => unused (rs x) v /\ unused (rs x) tmp /\ v <> tmp
  end.
Inductive ev_legal (debug : bool) : world -> list event -> Prop :=
| el_nil x : ev_legal debug x []
| el_cons x e es : ev_pre x e -> (forall x', ev_step debug x e = Ok x' -> ev_legal debug x' es) -> ev_legal debug x (e :: es).

(** The handles obtained by a history. *)
Definition obtained (e : event) : list handle :=
  match e with Ref _ => [] | FromHandle _ h => [h] | FromPath _ r | Open _ _ r => as_list r end.

(** The objects that own [h] and are alive. *)
Definition owners (x : world) (h : handle) : list nat :=
  filter (fun o => match lib_of (libs x) o, nth_error (objs (hp (rs x))) o with
                   | Some k, Some ob => (k =? h) && (match st ob with Alive => true | _ => false end)
                   | _, _ => false end)
         (seq 0 (length (objs (hp (rs x))))).
Definition count (h : handle) (l : list handle) : nat := count_occ Nat.eq_dec l h.

(** The books: every object that owns a handle is alive exactly while there is a reference to it; a handle was closed
    once for every owner that is gone, and not for the others. *)
Definition books (x : world) : Prop :=
  balanced (rs x)
  /\ (forall h, count h (opened x) = count h (closed x) + length (owners x h))
  /\ (forall h o, In o (owners x h) <-> lib_of (libs x) o = Some h /\ 0 < handles (rs x) o).
