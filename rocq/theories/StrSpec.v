(** Specification vocabulary for am-string.h, independent of the model's helpers. *)
From Verif Require Import Base.

(** [buf] points to the NUL-terminated string [s] (anything may follow the terminator). *)
Definition cstring (buf s : list N) : Prop :=
  exists rest, buf = s ++ 0%N :: rest /\ ~ In 0%N s.

(** The pieces with the separator in between. *)
Fixpoint intercalate (sep : list N) (ps : list (list N)) : list N :=
  match ps with
  | [] => []
  | [p] => p
  | p :: more => p ++ sep ++ intercalate sep more
  end.

(** [sep] occurs in [s] (somewhere / after [a]). *)
Definition occurs (sep s : list N) : Prop := exists a b, s = a ++ sep ++ b.

(** Leftmost, greedy, non-overlapping cutting of [s] at [sep]. *)
Inductive cuts (sep : list N) : list N -> list (list N) -> Prop :=
| cuts_none s : ~ occurs sep s -> cuts sep s [s]
| cuts_at a b ps :
    (forall a' b', a ++ sep ++ b = a' ++ sep ++ b' -> length a <= length a') ->
    cuts sep b ps -> cuts sep (a ++ sep ++ b) (a :: ps).

(** What Split must return: nothing for the empty string, otherwise the cut pieces. *)
Definition splits (sep s : list N) (ps : list (list N)) : Prop :=
  (s = [] /\ ps = []) \/ (s <> [] /\ cuts sep s ps).

(** ASCII case mapping of one byte. *)
Definition ascii_upper (c : N) : N := if ((97 <=? c) && (c <=? 122))%N then (c - 32)%N else c.
Definition ascii_lower (c : N) : N := if ((65 <=? c) && (c <=? 90))%N then (c + 32)%N else c.

Definition is_byte (c : N) : Prop := (c < 256)%N.
