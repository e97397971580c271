(** Specifications for am-raii.h. *)
From Verif Require Import Base RaiiModel.

(** * Properly nested scopes *)
Inductive nested {V} : list (sev V) -> Prop :=
| n_nil : nested []
| n_write l x : nested [Write l x]
| n_scope l x body : nested body -> nested (Enter l x :: body ++ [Leave])
| n_seq a b : nested a -> nested b -> nested (a ++ b).

(** What a nested program does to memory, stated recursively over its structure: a scope leaves its own location
    as it found it, and everything else as the body left it. *)
Inductive effect {V} : list (sev V) -> (loc -> V) -> (loc -> V) -> Prop :=
| e_nil m m' : (forall k, m' k = m k) -> effect [] m m'
| e_write l x m m' : m' l = x -> (forall k, k <> l -> m' k = m k) -> effect [Write l x] m m'
| e_scope l x body m m1 m2 m' :
    m1 l = x -> (forall k, k <> l -> m1 k = m k) -> effect body m1 m2 ->
    m' l = m l -> (forall k, k <> l -> m' k = m2 k) -> effect (Enter l x :: body ++ [Leave]) m m'
| e_seq a b m m1 m' : effect a m m1 -> effect b m1 m' -> effect (a ++ b) m m'.

(** * Stacks of linked objects *)
Definition stacks := head -> list obj.     (* innermost first *)
Definition no_stacks : stacks := fun _ => [].
Definition put_stack (m : stacks) (h : head) (l : list obj) : stacks := fun k => if k =? h then l else m k.
Definition alive (m : stacks) (o : obj) : Prop := exists h, In o (m h).

(** Properly nested lifetimes: an object is created with a fresh name, and destroyed only while it is the
    innermost of its own head. *)
Inductive scoped : stacks -> list lev -> stacks -> Prop :=
| s_nil m : scoped m [] m
| s_new m o h t m' : ~ alive m o -> scoped (put_stack m h (o :: m h)) t m' -> scoped m (LNew o h :: t) m'
| s_del m o h l t m' : m h = o :: l -> scoped (put_stack m h l) t m' -> scoped m (LDelete o :: t) m'.

(** * Guards *)
Section Guard.
Variable C : Type.
(** Per variable: a guard that is armed with a callback, or disarmed. *)
Definition gvals := gvar -> option (option C).
Definition no_guards : gvals := fun _ => None.
Definition gput (m : gvals) (v : gvar) (x : option (option C)) : gvals := fun k => if k =? v then x else m k.

(** Next values, callbacks run by this event, callbacks disarmed by this event. *)
Definition gmeaning (m : gvals) (e : gev C) : option (gvals * list C * list C) :=
  match e with
  | GMake v c _ => match m v with None => Some (gput m v (Some (Some c)), [], []) | _ => None end
  | GMove v u => match m v, m u with
      | None, Some x => Some (gput (gput m v (Some x)) u (Some None), [], []) | _, _ => None end
  | GCancel v => match m v with
      | Some (Some c) => Some (gput m v (Some None), [], [c])
      | Some None => Some (gput m v (Some None), [], []) | None => None end
  | GDestroy v => match m v with
      | Some (Some c) => Some (gput m v None, [c], [])
      | Some None => Some (gput m v None, [], []) | None => None end
  end.
Fixpoint gmeanings (m : gvals) (t : list (gev C)) : option (gvals * list C * list C) :=
  match t with
  | [] => Some (m, [], [])
  | e :: t' =>
    match gmeaning m e with
    | None => None
    | Some (m, r, d) =>
      match gmeanings m t' with Some (m, r', d') => Some (m, r ++ r', d ++ d') | None => None end
    end
  end.
(** The callbacks a program hands to guards. *)
Fixpoint made (t : list (gev C)) : list C :=
  match t with [] => [] | GMake _ c _ :: t' => c :: made t' | _ :: t' => made t' end.
End Guard.
Arguments no_guards {C}. Arguments gput {C}. Arguments gmeaning {C}. Arguments gmeanings {C}. Arguments made {C}.
