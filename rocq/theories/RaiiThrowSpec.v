(** Specifications for am-raii.h with exceptions. *)
From Verif Require Import Base RaiiModel RaiiThrowModel.

(** How often an event was seen. *)
Definition gevent_eq (a b : gevent) : {a = b} + {a <> b}.
Proof. decide equality; apply Nat.eq_dec. Defined.
Definition times (e : gevent) (l : list gevent) : nat := count_occ gevent_eq l e.

(** The program has come to [s], in control of what happens next. *)
Definition ended {V} (e : ending V) (s : tstate V) : Prop := e = Done s \/ e = Thrown s.

(** [p] assigns only to locations in [ls] or to those of the scopes it is in. *)
Inductive writes_only {V} : list loc -> prog V -> Prop :=
| w_skip ls : writes_only ls PSkip
| w_seq ls a b : writes_only ls a -> writes_only ls b -> writes_only ls (PSeq a b)
| w_throw ls : writes_only ls PThrow
| w_try ls a h : writes_only ls a -> writes_only ls h -> writes_only ls (PTry a h)
| w_write ls l x : In l ls -> writes_only ls (PWrite l x)
| w_save ls l x b : writes_only (l :: ls) b -> writes_only ls (PSave l x b)
| w_guard ls i c b : writes_only ls c -> writes_only ls b -> writes_only ls (PGuard i c b)
| w_cancel ls k : writes_only ls (PCancel k).

(** A program without exceptions and guards, as the events of RaiiModel.v. *)
Inductive plain {V} : prog V -> list (sev V) -> Prop :=
| p_skip : plain PSkip []
| p_seq a b ta tb : plain a ta -> plain b tb -> plain (PSeq a b) (ta ++ tb)
| p_write l x : plain (PWrite l x) [Write l x]
| p_save l x b tb : plain b tb -> plain (PSave l x b) (Enter l x :: tb ++ [Leave]).

(** [p] throws nothing itself; the callbacks of [p] throw nothing themselves. *)
Fixpoint calm {V} (p : prog V) : Prop :=
  match p with
  | PThrow => False
  | PSeq a b | PTry a b | PGuard _ a b => calm a /\ calm b
  | PSave _ _ b => calm b
  | PSkip | PWrite _ _ | PCancel _ => True
  end.
Fixpoint calm_callbacks {V} (p : prog V) : Prop :=
  match p with
  | PGuard _ c b => calm c /\ calm_callbacks b
  | PSeq a b | PTry a b => calm_callbacks a /\ calm_callbacks b
  | PSave _ _ b => calm_callbacks b
  | PSkip | PThrow | PWrite _ _ | PCancel _ => True
  end.
