(** A hash table under a HashPolicy that may answer anything at any time and may throw: a bag of payloads, which a call that
    throws leaves as it was. *)
From Verif Require Import Base HashTableModel HashTableSpec HashOracleModel.

Section Spec.
Variable Key Payload : Type.
Variable may_fail : bool -> Prop.

(** The policy throws when asked about [k] and the payloads of [S]. *)
Definition throws_on (x : ocall Key Payload) (S : list Payload) (k : Key) : Prop :=
  hash_at x k = None \/ exists n q, In q S /\ matches_at x n k q = None.
(** Some call of matches answered yes for [k] and [q]. *)
Definition accepted (x : ocall Key Payload) (k : Key) (q : Payload) : Prop := exists n, matches_at x n k q = Some true.

Definition normal (S : list Payload) (x : ocall Key Payload) (r : out Payload) (S' : list Payload) : Prop :=
  let seen k := exists q rest, Permutation S (q :: rest) /\ accepted x k q /\ r = RFound q /\ Permutation S' S in
  let replaced k p := exists q rest, Permutation S (q :: rest) /\ accepted x k q /\ r = RFound q /\ Permutation S' (p :: rest) in
  let added p := r = RAdded p /\ Permutation S' (p :: S) in
  let failed alloc := r = RFailed /\ Permutation S' S /\ may_fail alloc in
  let nothing := r = RAbsent /\ Permutation S' S in
  match call_op x with
  | OAdd k p alloc | OAddInPlace k p alloc => seen k \/ added p \/ failed alloc
  | OSet k p alloc => replaced k p \/ added p \/ failed alloc
  | OUpdate k p => replaced k p \/ nothing
  | OFind k | OFindForAdd k => seen k \/ nothing
  | ORemove k => r = RUnit /\ (Permutation S' S \/ exists q, Permutation S (q :: S') /\ accepted x k q)
  | OClear => r = RUnit /\ S' = []
  | OCheckDensity alloc => (r = RUnit /\ Permutation S' S) \/ failed alloc
  | OMove => r = RUnit /\ Permutation S' S
  | OEraseIf pred =>
      exists l, r = RList l /\ Permutation l S /\ Permutation S' (filter (fun q => negb (pred q)) S)
  | OIterate => exists l, r = RList l /\ Permutation l S /\ Permutation S' S
  | OElements => r = RNum (N.of_nat (length S)) /\ Permutation S' S
  end.
(** The key of a call that consults the policy. *)
Definition key_of (o : op Key Payload) : option Key :=
  match o with
  | OAdd k _ _ | OAddInPlace k _ _ | OSet k _ _ | OUpdate k _ | OFind k | OFindForAdd k | ORemove k => Some k
  | _ => None
  end.
Definition obag_step (S : list Payload) (x : ocall Key Payload) (r : option (out Payload)) (S' : list Payload) : Prop :=
  match r with
  | Some q => normal S x q S'
  | None => S' = S /\ exists k, key_of (call_op x) = Some k /\ throws_on x S k
  end.
Inductive obag_run : list Payload -> list (ocall Key Payload) -> list (option (out Payload)) -> list Payload -> Prop :=
| obag_nil S : obag_run S [] [] S
| obag_cons S x r S1 xs rs S2 : obag_step S x r S1 -> obag_run S1 xs rs S2 -> obag_run S (x :: xs) (r :: rs) S2.
End Spec.
Arguments throws_on {Key Payload} x S k. Arguments accepted {Key Payload} x k q.
Arguments normal {Key Payload} may_fail S x r S'. Arguments key_of {Key Payload} o.
Arguments obag_step {Key Payload} may_fail S x r S'. Arguments obag_run {Key Payload} may_fail S xs rs S'.
