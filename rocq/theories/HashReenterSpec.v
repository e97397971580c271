(** Specification for hash tables whose payloads use the table in their destructors: a collection of payloads from which an
    element is taken out first, and then its destructor runs. *)
From Verif Require Import Base HashTableModel HashTableSpec HashReenterModel.

Section Spec.
Variable Key Payload : Type.
Variable matches : Key -> Payload -> bool.
Variable dtor : Payload -> list (hop Key Payload).
Variable may_fail : bool -> Prop.

(** What destructors may do for the guarantee: look up and remove elements of strictly lower rank - as when payloads own others
    by their keys, without cycles. *)
Definition tame (rank : Payload -> nat) : Prop :=
  forall p o, In o (dtor p) ->
    match o with
    | HFind k | HRemove k => forall q, matches k q = true -> rank q < rank p
    | _ => False
    end.

(** The payloads destroyed, and those added, in a trace. *)
Definition destroyed (ev : list (event Payload)) : list Payload :=
  flat_map (fun e => match e with VDestroyed p => [p] | _ => [] end) ev.
Definition added (ev : list (event Payload)) : list Payload :=
  flat_map (fun e => match e with VAdded p => [p] | _ => [] end) ev.

(** While clear() runs: nothing but elements still in the collection is found or destroyed; at the end, [S'] is left.  Lookups
    may miss elements (see C121_clear_hides_elements_refuted). *)
Inductive draining : list Payload -> list (event Payload) -> list Payload -> Prop :=
| dr_nil S S' : Permutation S S' -> draining S [] S'
| dr_destroyed S q S1 ev S' : Permutation S (q :: S1) -> draining S1 ev S' -> draining S (VDestroyed q :: ev) S'
| dr_found S q ev S' : In q S -> draining S ev S' -> draining S (VFound q :: ev) S'
| dr_absent S ev S' : draining S ev S' -> draining S (VAbsent :: ev) S'.

(** Calls on the collection [S], with the destructors they run: events, and the collection afterwards. *)
Inductive ideal : list Payload -> list (hop Key Payload) -> list (event Payload) -> list Payload -> Prop :=
| id_nil S S' : Permutation S S' -> ideal S [] [] S'
| id_found S k q os ev S' : In q S -> matches k q = true -> ideal S os ev S' -> ideal S (HFind k :: os) (VFound q :: ev) S'
| id_absent S k os ev S' : (forall q, In q S -> matches k q = false) -> ideal S os ev S' ->
    ideal S (HFind k :: os) (VAbsent :: ev) S'
| id_present S k p alloc q os ev S' : In q S -> matches k q = true -> ideal S os ev S' ->
    ideal S (HAdd k p alloc :: os) (VFound q :: ev) S'
| id_added S k p alloc os ev S' : (forall q, In q S -> matches k q = false) -> ideal (p :: S) os ev S' ->
    ideal S (HAdd k p alloc :: os) (VAdded p :: ev) S'
| id_failed S k p alloc os ev S' : (forall q, In q S -> matches k q = false) -> may_fail alloc -> ideal S os ev S' ->
    ideal S (HAdd k p alloc :: os) (VFailed :: ev) S'
| id_remove S k q S1 ev1 S2 os ev2 S' : matches k q = true -> Permutation S (q :: S1) ->
    ideal S1 (dtor q) ev1 S2 -> ideal S2 os ev2 S' ->
    ideal S (HRemove k :: os) (VDestroyed q :: ev1 ++ ev2) S'
| id_remove_absent S k os ev S' : (forall q, In q S -> matches k q = false) -> ideal S os ev S' ->
    ideal S (HRemove k :: os) ev S'
| id_clear S ev1 os ev2 S' : draining S ev1 [] -> ideal [] os ev2 S' -> ideal S (HClear :: os) (ev1 ++ ev2) S'
| id_elements S os ev S' : ideal S os ev S' -> ideal S (HElements :: os) (VCount (N.of_nat (length S)) :: ev) S'.

(** Client-side conditions on the calls made outside destructors. *)
Definition hop_ok (rank : Payload -> nat) (depth : nat) (o : hop Key Payload) : Prop :=
  match o with HAdd k p _ => matches k p = true /\ rank p < depth | _ => True end.
Definition as_op (o : hop Key Payload) : op Key Payload :=
  match o with
  | HFind k => OFind k | HAdd k p alloc => OAdd k p alloc | HRemove k => ORemove k | HClear => OClear | HElements => OElements
  end.
End Spec.
Arguments tame {Key Payload} matches dtor rank.
Arguments destroyed {Payload} ev. Arguments added {Payload} ev.
Arguments draining {Payload} S ev S'. Arguments ideal {Key Payload} matches dtor may_fail S os ev S'.
Arguments hop_ok {Key Payload} matches rank depth o. Arguments as_op {Key Payload} o.

(** Tables filled by additions, and what they hold: the states in which the refutations start. *)
Definition filled {Key Payload : Type} (hashf : Key -> N) (matches : Key -> Payload -> bool) (dflt : Payload) (c : cfg)
    (dtor : Payload -> list (hop Key Payload)) (capacity : N) (t : table Payload) : Prop :=
  exists t0 adds fuel ev, init c true ctor capacity = Ok (t0, true) /\
    Forall (fun o => match o with HAdd k p _ => matches k p = true | _ => False end) adds /\
    exec hashf matches dflt c dtor (S fuel) [] t0 adds = Ok (t, ev).
