(** Specification: a HashMap is a partial function from keys to values, a HashSet a predicate. *)
From Verif Require Import Base HashTableModel HashMapModel.

Section MapSpec.
Variable K V : Type.
Variable v0 : V.
Variable may_fail : bool -> Prop.

Definition pmap := K -> option V.
Definition update (eqb : K -> K -> bool) (M : pmap) (k : K) (ov : option V) : pmap :=
  fun k' => if eqb k k' then ov else M k'.
Definition peq (M M' : pmap) : Prop := forall k, M k = M' k.

(** [n] is the number of keys present in M. *)
Definition size_is (M : pmap) (n : N) : Prop :=
  exists ks, NoDup ks /\ (forall k, In k ks <-> M k <> None) /\ N.of_nat (length ks) = n.

(** Adding under an absent key: succeeds, or fails when allowed. *)
Definition madd eqb (M : pmap) k v alloc (r : out (K * V)) (M' : pmap) : Prop :=
  M k = None /\
  ((r = RAdded (k, v) /\ peq M' (update eqb M k (Some v))) \/
   (r = RFailed /\ may_fail alloc /\ peq M' M)).

Definition map_step eqb (M : pmap) (o : mapop K V) (r : out (K * V)) (M' : pmap) : Prop :=
  match o with
  | MAdd k v a =>
      (exists w, M k = Some w /\ r = RFound (k, w) /\ peq M' M) \/ madd eqb M k v a r M'
  | MAddDefault k a =>
      (exists w, M k = Some w /\ r = RFound (k, w) /\ peq M' M) \/ madd eqb M k v0 a r M'
  | MPut k v a =>
      (exists w, M k = Some w /\ r = RFound (k, w) /\ peq M' (update eqb M k (Some v))) \/ madd eqb M k v a r M'
  | MAssign k v =>
      (exists w, M k = Some w /\ r = RFound (k, w) /\ peq M' (update eqb M k (Some v))) \/
      (M k = None /\ r = RAbsent /\ peq M' M)
  | MGet k => peq M' M /\ r = match M k with Some w => RFound (k, w) | None => RAbsent end
  | MRemove k => r = RUnit /\ peq M' (update eqb M k None)
  | MClear => r = RUnit /\ peq M' (fun _ => None)
  | MSize => (exists n, r = RNum n /\ size_is M n) /\ peq M' M
  end.

Inductive map_run eqb : pmap -> list (mapop K V) -> list (out (K * V)) -> pmap -> Prop :=
| map_run_nil M : map_run eqb M [] [] M
| map_run_cons M o r M1 ops rs M2 :
    map_step eqb M o r M1 -> map_run eqb M1 ops rs M2 -> map_run eqb M (o :: ops) (r :: rs) M2.
End MapSpec.

Section SetSpec.
Variable K : Type.
Variable may_fail : bool -> Prop.
Definition pset := K -> bool.
Definition seq_ (X Y : pset) : Prop := forall k, X k = Y k.
Definition set_size_is (X : pset) (n : N) : Prop :=
  exists ks, NoDup ks /\ (forall k, In k ks <-> X k = true) /\ N.of_nat (length ks) = n.

Definition set_step (eqb : K -> K -> bool) (X : pset) (o : setop K) (r : out K) (Y : pset) : Prop :=
  match o with
  | SAdd k a =>
      (X k = true /\ r = RFound k /\ seq_ Y X) \/
      (X k = false /\ r = RAdded k /\ seq_ Y (fun k' => eqb k k' || X k')) \/
      (X k = false /\ r = RFailed /\ may_fail a /\ seq_ Y X)
  | SHas k => r = (if X k then RFound k else RAbsent) /\ seq_ Y X
  | SRemove k => r = RUnit /\ seq_ Y (fun k' => negb (eqb k k') && X k')
  | SClear => r = RUnit /\ seq_ Y (fun _ => false)
  | SSize => (exists n, r = RNum n /\ set_size_is X n) /\ seq_ Y X
  end.

Inductive set_run eqb : pset -> list (setop K) -> list (out K) -> pset -> Prop :=
| set_run_nil X : set_run eqb X [] [] X
| set_run_cons X o r Y ops rs Z :
    set_step eqb X o r Y -> set_run eqb Y ops rs Z -> set_run eqb X (o :: ops) (r :: rs) Z.
End SetSpec.

Arguments map_run {K V} v0 may_fail eqb M ops rs M'.
Arguments set_run {K} may_fail eqb X ops rs Y.
