(** Client programs of ke::HashTable whose HashPolicy may answer anything: am-hashtable.h with, for every call, its own
    [hash] and [matches] functions.  This is what a table meets when HashPolicy breaks its contract (am-hashmap.h:47), when
    [hash] and [matches] depend on global state, or when a client changes the key inside a payload through the Result, the
    Insert or the iterator.  Simplification: within one call of the table the answers are those of one function. *)
From Verif Require Import Base HashTableModel.

Section Robust.
Variable Key Payload : Type.
Variable dflt : Payload.
Variable c : cfg.

(** A call of am-hashtable.h:388-499 and what HashPolicy::hash and HashPolicy::matches (am-hashtable.h:113-121) answer
    while it runs. *)
Record call := Call { hash_now : Key -> N; matches_now : Key -> Payload -> bool; the_op : op Key Payload }.
(** One call of am-hashtable.h:388-499. *)
Definition rstep (t : table Payload) (x : call) : outcome (table Payload * out Payload) :=
  step (hash_now x) (matches_now x) dflt c t (the_op x).
(** A sequence of calls of am-hashtable.h:388-499. *)
Fixpoint rrun (t : table Payload) (xs : list call) : outcome (table Payload * list (out Payload)) :=
  match xs with
  | [] => Ok (t, [])
  | x :: rest =>
      do (t', r) <- rstep t x;
      do (t'', rs) <- rrun t' rest;
      Ok (t'', r :: rs)
  end.
(** am-hashtable.h:379-427 and 403-407 around a sequence of calls, as [life] of HashTableModel. *)
Definition rlife (capacity : N) (xs : list call) : outcome (table Payload * list (out Payload)) :=
  do (t, ok) <- init c true ctor capacity;
  if ok then
    do (t', outs) <- rrun t xs;
    do _ <- destroy t';
    Ok (t', outs)
  else Ok (t, []).
End Robust.
Arguments Call {Key Payload} hash_now matches_now the_op. Arguments hash_now {Key Payload} c k.
Arguments matches_now {Key Payload} c k p. Arguments the_op {Key Payload} c.
Arguments rstep {Key Payload} dflt c t x. Arguments rrun {Key Payload} dflt c t xs.
Arguments rlife {Key Payload} dflt c capacity xs.
