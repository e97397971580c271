(** What is left of a hash table's contract when its HashPolicy cannot be trusted: it is a bag of payloads.  A lookup yields
    some payload of the bag that [matches] accepted, or nothing; an addition puts the given payload in or reports one that is
    already there; a removal takes out at most one payload, accepted by [matches].  Nothing appears, disappears or is seen
    otherwise. *)
From Verif Require Import Base HashTableModel HashTableSpec HashRobustModel.

Section Spec.
Variable Key Payload : Type.
Variable may_fail : bool -> Prop.

(** [q] is one of the payloads of [S], and [rest] the others. *)
Definition pick (S : list Payload) (q : Payload) (rest : list Payload) : Prop := Permutation S (q :: rest).

Definition bag_step (S : list Payload) (x : call Key Payload) (r : out Payload) (S' : list Payload) : Prop :=
  let m := matches_now x in
  let seen k := exists q rest, pick S q rest /\ m k q = true /\ r = RFound q /\ Permutation S' S in
  let replaced k p := exists q rest, pick S q rest /\ m k q = true /\ r = RFound q /\ pick S' p rest in
  let added p := r = RAdded p /\ pick S' p S in
  let failed alloc := r = RFailed /\ Permutation S' S /\ may_fail alloc in
  let nothing := r = RAbsent /\ Permutation S' S in
  match the_op x with
  | OAdd k p alloc | OAddInPlace k p alloc => seen k \/ added p \/ failed alloc
  | OSet k p alloc => replaced k p \/ added p \/ failed alloc
  | OUpdate k p => replaced k p \/ nothing
  | OFind k | OFindForAdd k => seen k \/ nothing
  | ORemove k => r = RUnit /\ (Permutation S' S \/ exists q, pick S q S' /\ m k q = true)
  | OClear => r = RUnit /\ S' = []
  | OCheckDensity alloc => (r = RUnit /\ Permutation S' S) \/ failed alloc
  | OMove => r = RUnit /\ Permutation S' S
  | OEraseIf pred =>
      exists l, r = RList l /\ Permutation l S /\ Permutation S' (filter (fun q => negb (pred q)) S)
  | OIterate => exists l, r = RList l /\ Permutation l S /\ Permutation S' S
  | OElements => r = RNum (N.of_nat (length S)) /\ Permutation S' S
  end.

Inductive bag_run : list Payload -> list (call Key Payload) -> list (out Payload) -> list Payload -> Prop :=
| bag_nil S : bag_run S [] [] S
| bag_cons S x r S1 xs rs S2 : bag_step S x r S1 -> bag_run S1 xs rs S2 -> bag_run S (x :: xs) (r :: rs) S2.
End Spec.
Arguments pick {Payload} S q rest.
Arguments bag_step {Key Payload} may_fail S x r S'. Arguments bag_run {Key Payload} may_fail S xs rs S'.
