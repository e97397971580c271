(** Model of ke::HashMap (amtl/am-hashmap.h) and ke::HashSet (amtl/am-hashset.h) as clients of HashTable. *)
From Verif Require Import Base HashTableModel.
Local Open Scope N_scope.

Section HashMap.
Variable K V : Type.
Variable eqb : K -> K -> bool.      (* HashPolicy::matches(const K&, const K&) *)
Variable hashf : K -> N.            (* HashPolicy::hash(const K&) *)
Variable k0 : K. Variable v0 : V.   (* K(), V(): value-initialised *)

(** am-hashmap.h:54-74: Entry { key, value }. *)
Local Notation mentry := (K * V)%type.
(** am-hashmap.h:76-88: Policy::matches compares the key only. *)
Definition mmatches (k : K) (e : mentry) : bool := eqb k (fst e).

(** Client operations on a HashMap.  MAdd: [i = findForAdd(k); if (!i.found()) add(i, k, v)] (am-hashmap.h:115-118,131-135);
    MPut: the same, but when found [i->value = v]; MAssign: [r = find(k); if (r.found()) r->value = v];
    MAddDefault: [i = findForAdd(k); if (!i.found()) add(i, k)] where the value is V() (am-hashmap.h:136-140). *)
Inductive mapop :=
| MAdd (k : K) (v : V) (alloc : bool)
| MAddDefault (k : K) (alloc : bool)
| MPut (k : K) (v : V) (alloc : bool)
| MAssign (k : K) (v : V)
| MGet (k : K)
| MRemove (k : K)
| MClear
| MSize.

(** Every HashMap member forwards to the table (am-hashmap.h:110-159).  Overwriting [i->value] leaves the key
    field as stored; keys that match are equal here, so the new entry is (k, v). *)
Definition mapop_op (o : mapop) : op K mentry :=
  match o with
  | MAdd k v a => OAdd k (k, v) a
  | MAddDefault k a => OAdd k (k, v0) a
  | MPut k v a => OSet k (k, v) a
  | MAssign k v => OUpdate k (k, v)
  | MGet k => OFind k
  | MRemove k => ORemove k
  | MClear => OClear
  | MSize => OElements
  end.

Definition map_life (c : cfg) (capacity : N) (ops : list mapop) :=
  life hashf mmatches (k0, v0) c capacity (map mapop_op ops).
End HashMap.

Section HashSet.
Variable K : Type.
Variable eqb : K -> K -> bool.
Variable hashf : K -> N.
Variable k0 : K.

(** am-hashset.h:50-62: the payload is the key. SAdd: am-hashset.h:141-146; SHas: 133-137. *)
Inductive setop :=
| SAdd (k : K) (alloc : bool)
| SHas (k : K)
| SRemove (k : K)
| SClear
| SSize.
Definition setop_op (o : setop) : op K K :=
  match o with
  | SAdd k a => OAdd k k a
  | SHas k => OFind k
  | SRemove k => ORemove k
  | SClear => OClear
  | SSize => OElements
  end.
Definition set_life (c : cfg) (capacity : N) (ops : list setop) :=
  life hashf eqb k0 c capacity (map setop_op ops).
End HashSet.

Arguments MAdd {K V} k v alloc. Arguments MAddDefault {K V} k alloc. Arguments MPut {K V} k v alloc.
Arguments MAssign {K V} k v. Arguments MGet {K V} k. Arguments MRemove {K V} k. Arguments MClear {K V}.
Arguments MSize {K V}.
Arguments mmatches {K V} eqb k e. Arguments mapop_op {K V} v0 o.
Arguments map_life {K V} eqb hashf k0 v0 c capacity ops.
Arguments SAdd {K} k alloc. Arguments SHas {K} k. Arguments SRemove {K} k. Arguments SClear {K}. Arguments SSize {K}.
Arguments setop_op {K} o. Arguments set_life {K} eqb hashf k0 c capacity ops.
