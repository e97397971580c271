(** Abstract specification of a hash table: a finite collection of payloads, no two of which match a common
    key.  Nothing here mentions slots, hashes, tombstones or capacities. *)
From Verif Require Import Base HashTableModel.

Section Spec.
Variable Key Payload : Type.
Variable matches : Key -> Payload -> bool.
Variable may_fail : bool -> Prop.   (* when an operation whose allocation outcome is [alloc] may fail *)

(** The contract of HashPolicy (am-hashmap.h:47 "All types that match a given key, must compute the same hash"):
    keys that match a common payload have the same hash and match the same payloads. *)
Definition policy_ok (hashf : Key -> N) : Prop :=
  forall k k' p, matches k p = true -> matches k' p = true ->
    hashf k = hashf k' /\ forall q, matches k q = matches k' q.

(** A client adds or stores a payload only under a key that the payload matches. *)
Definition op_ok (o : op Key Payload) : Prop :=
  match o with
  | OAdd k p _ | OAddInPlace k p _ | OSet k p _ | OUpdate k p => matches k p = true
  | _ => True
  end.

(** One abstract step: from collection [S] with observable result [r] to collection [S']. *)
Definition spec_add (S : list Payload) (k : Key) (p : Payload) (alloc : bool)
    (r : out Payload) (S' : list Payload) : Prop :=
  (r = RAdded p /\ (forall q, In q S -> matches k q = false) /\ Permutation S' (p :: S)) \/
  (r = RFailed /\ (forall q, In q S -> matches k q = false) /\ Permutation S' S /\ may_fail alloc).

Definition spec_found (S : list Payload) (k : Key) (r : out Payload) : Prop :=
  exists q, In q S /\ matches k q = true /\ r = RFound q.
Definition spec_absent (S : list Payload) (k : Key) (r : out Payload) : Prop :=
  (forall q, In q S -> matches k q = false) /\ r = RAbsent.
(** Replace the payload matching k by p. *)
Definition spec_replace (S : list Payload) (k : Key) (p : Payload) (S' : list Payload) : Prop :=
  Permutation S' (p :: filter (fun q => negb (matches k q)) S).

Definition spec_step (S : list Payload) (o : op Key Payload) (r : out Payload) (S' : list Payload) : Prop :=
  match o with
  | OAdd k p alloc | OAddInPlace k p alloc =>
      (spec_found S k r /\ Permutation S' S) \/ spec_add S k p alloc r S'
  | OSet k p alloc =>
      (spec_found S k r /\ spec_replace S k p S') \/ spec_add S k p alloc r S'
  | OUpdate k p =>
      (spec_found S k r /\ spec_replace S k p S') \/ (spec_absent S k r /\ Permutation S' S)
  | OFind k | OFindForAdd k =>
      (spec_found S k r \/ spec_absent S k r) /\ Permutation S' S
  | ORemove k =>
      r = RUnit /\ Permutation S' (filter (fun q => negb (matches k q)) S)
  | OClear => r = RUnit /\ S' = []
  | OCheckDensity alloc =>
      (r = RUnit \/ (r = RFailed /\ may_fail alloc)) /\ Permutation S' S
  | OMove => r = RUnit /\ Permutation S' S
  | OEraseIf pred =>
      (exists l, r = RList l /\ Permutation l S) /\
      Permutation S' (filter (fun q => negb (pred q)) S)
  | OIterate => (exists l, r = RList l /\ Permutation l S) /\ Permutation S' S
  | OElements => r = RNum (N.of_nat (length S)) /\ Permutation S' S
  end.

Inductive spec_run : list Payload -> list (op Key Payload) -> list (out Payload) -> list Payload -> Prop :=
| spec_run_nil S : spec_run S [] [] S
| spec_run_cons S o r S1 ops rs S2 :
    spec_step S o r S1 -> spec_run S1 ops rs S2 -> spec_run S (o :: ops) (r :: rs) S2.

(** *** Client-side conditions *)

(** A capacity the documentation allows: below the minimum (then 16 is used) or a power of two up to the limit. *)
Definition capacity_ok (c : cfg) (capacity : N) : Prop :=
  (capacity < 16 \/ ((exists k, capacity = 2 ^ k) /\ 16 <= capacity <= kMaxCapacity c))%N.
(** Entries are small enough for the minimum table (sizeof(Entry) <= INT_MAX / 16). *)
Definition config_ok (c : cfg) : Prop := (16 <= kMaxCapacity c)%N.

Definition is_add (o : op Key Payload) : bool :=
  match o with OAdd _ _ _ | OAddInPlace _ _ _ | OSet _ _ _ => true | _ => false end.
Definition alloc_refused (o : op Key Payload) : bool :=
  match o with
  | OAdd _ _ a | OAddInPlace _ _ a | OSet _ _ a | OCheckDensity a => negb a
  | _ => false
  end.
(** Enough additions for the capacity limit to matter: more than 3/8 of kMaxCapacity. *)
Definition near_limit (c : cfg) (ops : list (op Key Payload)) : Prop :=
  (3 * kMaxCapacity c < 8 * N.of_nat (length (filter is_add ops)))%N.

(** States of a table during its life. *)
Definition reachable (hashf : Key -> N) (dflt : Payload) (c : cfg) (capacity : N) (t : table Payload) : Prop :=
  capacity_ok c capacity /\
  exists t0 ops outs,
    init c true ctor capacity = Ok (t0, true) /\ Forall op_ok ops /\
    run hashf matches dflt c t0 ops = Ok (t, outs).
End Spec.

Arguments is_add {Key Payload} o.
Arguments alloc_refused {Key Payload} o.
Arguments near_limit {Key Payload} c ops.
Arguments reachable {Key Payload} matches hashf dflt c capacity t.
Arguments policy_ok {Key Payload} matches hashf.
Arguments op_ok {Key Payload} matches o.
Arguments spec_step {Key Payload} matches may_fail S o r S'.
Arguments spec_run {Key Payload} matches may_fail S ops rs S'.

(** *** Work done by resizing *)
(** A resize reads every slot of the old block and clears every slot of the new one. *)
Definition resize_cost (before after : N) : N := if (before =? after)%N then 0%N else (before + after)%N.
(** The slots touched by all resizes of a history (up to the point, if any, where it aborts). *)
Fixpoint resize_work {Key Payload : Type} (hashf : Key -> N) (matches : Key -> Payload -> bool) (dflt : Payload) (c : cfg)
    (t : table Payload) (ops : list (op Key Payload)) : N :=
  match ops with
  | [] => 0%N
  | o :: rest =>
      match step hashf matches dflt c t o with
      | Ok (t', _) => (resize_cost (cap t) (cap t') + resize_work hashf matches dflt c t' rest)%N
      | _ => 0%N
      end
  end.
(** Slots that are not free: those that hold a payload or a removed mark. *)
Definition used_slots {Payload : Type} (t : table Payload) : N :=
  N.of_nat (length (filter (fun e => negb (isFree e)) (entries t))).
