(** What a user expects of exceptions thrown while a payload is built: the insertion has not happened. *)
From Verif Require Import Base HashTableModel HashTableSpec HashThrowModel.

Section S.
Variable Key Payload : Type.
Variable matches : Key -> Payload -> bool.
Variable may_fail : bool -> Prop.

(** One statement on the collection [S]: a throwing insertion under a key that is present never builds anything and
    finds the payload; otherwise it throws.  The collection is the same either way. *)
Definition xspec_step (S : list Payload) (o : xop Key Payload) (r : xout Payload) (S' : list Payload) : Prop :=
  match o with
  | Plain o => exists q, r = Out q /\ spec_step matches may_fail S o q S'
  | EntryThrows k =>
      S' = S /\ ((exists q, In q S /\ matches k q = true /\ r = Out (RFound q))
                 \/ ((forall q, In q S -> matches k q = false) /\ r = Threw))
  end.
Inductive xspec_run : list Payload -> list (xop Key Payload) -> list (xout Payload) -> list Payload -> Prop :=
| xspec_nil S : xspec_run S [] [] S
| xspec_cons S o r S1 ops rs S2 : xspec_step S o r S1 -> xspec_run S1 ops rs S2 -> xspec_run S (o :: ops) (r :: rs) S2.

(** The ordinary calls of a program. *)
Definition plain (ops : list (xop Key Payload)) : list (op Key Payload) :=
  flat_map (fun o => match o with Plain o => [o] | _ => [] end) ops.

(** The payloads constructed in a block of entries and not destroyed. *)
Definition alive (l : list (entry Payload)) : nat :=
  length (filter (fun e => isLive e && match e_pay e with Raw => false | _ => true end) l).
End S.
Arguments xspec_step {Key Payload}. Arguments xspec_run {Key Payload}. Arguments plain {Key Payload}.
Arguments alive {Payload}.
