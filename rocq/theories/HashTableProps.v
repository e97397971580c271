(** Properties C01-C13: HashTable, HashMap, HashSet.  Statements only.

    Reading guide: [life c capacity ops] constructs a table, calls init(capacity), performs the client operations
    [ops] and destroys the table; [Ok (t, outs)] carries the observable results.  [spec_run] is the abstract
    collection of HashTableSpec; [reachable] are the states during such a life.  The configuration [c] ranges over
    every entry size, both build modes and both kinds of AllocPolicy; each operation carries the outcome of the
    allocation it may request. *)
From Verif Require Import Base BitsModel HashTableModel HashTableSpec HashTableProofs HashTableFacts
  HashMapModel HashMapSpec HashMapProofs.
Local Open Scope N_scope.

(** A concrete instance for the non-vacuity examples: keys are numbers, the payload is (key, value), the hash
    collides modulo 4. *)
Definition ex_hash (k : N) : N := k mod 4.
Definition ex_match (k : N) (p : N * N) : bool := k =? fst p.
Definition ex_cfg : cfg := Cfg 24 true false.
Lemma ex_policy : policy_ok ex_match ex_hash.
Proof.
  intros k k' p H H'. unfold ex_match in *. apply N.eqb_eq in H, H'. subst. split; reflexivity || congruence.
Qed.
Lemma ex_config : config_ok ex_cfg.
Proof. unfold config_ok. now vm_compute. Qed.
Definition ex_ops : list (op N (N * N)) :=
  map (fun k => OAdd (N.of_nat k) (N.of_nat k, N.of_nat k * 10) true) (seq 0 40) ++
  map (fun k => ORemove (N.of_nat k)) (seq 3 30) ++
  [OAdd 5 (5, 55) true; OSet 5 (5, 56) true; OFind 5; OFind 7; OFindForAdd 39; OEraseIf (fun p => fst p <? 3); OIterate; OElements;
   OMove; OCheckDensity true; OFind 39; OClear; OElements].
Lemma ex_ops_ok : Forall (op_ok ex_match) ex_ops.
Proof. vm_compute. repeat constructor. Qed.
Definition ex_cap_ok : capacity_ok ex_cfg 16.
Proof. right. split; [now exists 4|]. split; [reflexivity|discriminate]. Qed.

(** ** C01 *)
Theorem C01_table_refines_collection :
  forall (Key Payload : Type) (hashf : Key -> N) (matches : Key -> Payload -> bool) (dflt : Payload) (c : cfg),
  policy_ok matches hashf -> config_ok c ->
  forall capacity ops, capacity_ok c capacity -> Forall (op_ok matches) ops ->
  match life hashf matches dflt c capacity ops with
  | Ok (_, outs) =>
      exists S, spec_run matches (fun alloc => aborts c = false /\ (alloc = false \/ near_limit c ops)) [] ops outs S
  | Fault Abort =>
      aborts c = true /\ (Exists (fun o => alloc_refused o = true) ops \/ near_limit c ops)
  | Fault AssertFail => debug c = true /\ near_limit c ops
  | _ => False
  end.
Proof. exact life_refines. Qed.
Print Assumptions C01_table_refines_collection.

(** When no allocation is refused and the history is short of the capacity limit nothing can fail. *)
Theorem C01_table_refines_collection_plain :
  forall (Key Payload : Type) (hashf : Key -> N) (matches : Key -> Payload -> bool) (dflt : Payload) (c : cfg),
  policy_ok matches hashf -> config_ok c ->
  forall capacity ops, capacity_ok c capacity -> Forall (op_ok matches) ops ->
  Forall (fun o => alloc_refused o = false) ops -> ~ near_limit c ops ->
  exists t outs S, life hashf matches dflt c capacity ops = Ok (t, outs) /\
    spec_run matches (fun _ => False) [] ops outs S.
Proof. exact life_refines_plain. Qed.
Print Assumptions C01_table_refines_collection_plain.

Example C01_nonvacuous :
  Forall (op_ok ex_match) ex_ops /\ ~ near_limit ex_cfg ex_ops /\
  match life ex_hash ex_match (0, 0) ex_cfg 16 ex_ops with
  | Ok (_, outs) => skipn 71 outs =
      [RFound (5, 55); RFound (5, 56); RAbsent; RFound (39, 390);
       RList [(0, 0); (33, 330); (34, 340); (35, 350); (36, 360); (37, 370); (38, 380); (39, 390); (2, 20); (1, 10); (5, 56)];
       RList [(33, 330); (34, 340); (35, 350); (36, 360); (37, 370); (38, 380); (39, 390); (5, 56)]; RNum 8;
       RUnit; RUnit; RFound (39, 390); RUnit; RNum 0]
  | _ => False
  end.
Proof. split; [exact ex_ops_ok|]. split; [vm_compute; discriminate|]. vm_compute. reflexivity. Qed.

(** ** C02 *)
Theorem C02_lookups_terminate :
  forall (Key Payload : Type) (hashf : Key -> N) (matches : Key -> Payload -> bool) (dflt : Payload) (c : cfg),
  policy_ok matches hashf -> config_ok c ->
  forall capacity t k, reachable matches hashf dflt c capacity t ->
  (exists s, find hashf matches c t k = Ok s) /\ (exists i, findForAdd hashf matches c t k = Ok i) /\
  forall h, h < 2 ^ 32 -> exists s, insertUnique c (entries t) (cap t) h = Ok s.
Proof. exact lookups_terminate. Qed.
Print Assumptions C02_lookups_terminate.

Theorem C02_no_operation_diverges :
  forall (Key Payload : Type) (hashf : Key -> N) (matches : Key -> Payload -> bool) (dflt : Payload) (c : cfg),
  policy_ok matches hashf -> config_ok c ->
  forall capacity ops, capacity_ok c capacity -> Forall (op_ok matches) ops ->
  life hashf matches dflt c capacity ops <> Diverge.
Proof.
  intros Key Payload hashf matches dflt c Hp Hc capacity ops H1 H2 E.
  pose proof (life_refines Key Payload hashf matches dflt c Hp Hc capacity ops H1 H2) as H.
  rewrite E in H. exact H.
Qed.
Print Assumptions C02_no_operation_diverges.

Lemma ex_reach : exists t, reachable ex_match ex_hash (0, 0) ex_cfg 16 t /\ nelem t = 13 /\ ndel t = 0 /\ cap t = 16.
Proof.
  eexists. split; [split; [exact ex_cap_ok|]; eexists; exists (firstn 13 ex_ops); eexists; split; [reflexivity|]; split|].
  - vm_compute. repeat constructor.
  - vm_compute. reflexivity.
  - vm_compute. auto.
Qed.
(** The table of [C02_nonvacuous] is as full as it can be: one more add resizes it. *)
Example C02_nonvacuous :
  exists t, reachable ex_match ex_hash (0, 0) ex_cfg 16 t /\ nelem t = 13 /\ ndel t = 0 /\ cap t = 16.
Proof. exact ex_reach. Qed.

(** ** C03 *)
Theorem C03_elements_and_iteration :
  forall (Key Payload : Type) (hashf : Key -> N) (matches : Key -> Payload -> bool) (dflt : Payload) (c : cfg),
  policy_ok matches hashf -> config_ok c ->
  forall capacity t, reachable matches hashf dflt c capacity t ->
  exists l, iterate c (fun _ => false) t = Ok (t, l) /\ elements t = N.of_nat (length l) /\
    (forall k, (length (filter (matches k) l) <= 1)%nat) /\
    forall k, exists r, step hashf matches dflt c t (OFind k) = Ok (t, r) /\
      step hashf matches dflt c t (OFindForAdd k) = Ok (t, r) /\
      ((exists p, In p l /\ matches k p = true /\ r = RFound p) \/
       ((forall p, In p l -> matches k p = false) /\ r = RAbsent)).
Proof. exact state_view. Qed.
Print Assumptions C03_elements_and_iteration.

Example C03_nonvacuous :
  match run ex_hash ex_match (0, 0) ex_cfg (match init ex_cfg true ctor 16 with Ok (t, _) => t | _ => ctor end)
    (firstn 50 ex_ops) with
  | Ok (t, _) => elements t = 30 /\ match iterate ex_cfg (fun _ => false) t with Ok (_, l) => length l = 30%nat | _ => False end
  | _ => False
  end.
Proof. vm_compute. auto. Qed.

(** ** C04 *)
Theorem C04_erase_while_iterating :
  forall (Key Payload : Type) (hashf : Key -> N) (matches : Key -> Payload -> bool) (dflt : Payload) (c : cfg),
  policy_ok matches hashf -> config_ok c ->
  forall capacity t pred, reachable matches hashf dflt c capacity t ->
  exists l t', iterate c (fun _ => false) t = Ok (t, l) /\
    iterate c pred t = Ok (t', l) /\
    iterate c (fun _ => false) t' = Ok (t', filter (fun p => negb (pred p)) l) /\
    elements t' = N.of_nat (length (filter (fun p => negb (pred p)) l)).
Proof. exact erase_if. Qed.
Print Assumptions C04_erase_while_iterating.

(** The table of [C02_nonvacuous], erasing every second element. *)
Example C04_nonvacuous :
  exists t, reachable ex_match ex_hash (0, 0) ex_cfg 16 t /\
  exists l t', iterate ex_cfg (fun p => N.even (fst p)) t = Ok (t', l) /\ length l = 13%nat /\ elements t' = 6 /\ ndel t' = 7.
Proof.
  eexists. split; [split; [exact ex_cap_ok|]; eexists; exists (firstn 13 ex_ops); eexists; split; [reflexivity|]; split|].
  - vm_compute. repeat constructor.
  - vm_compute. reflexivity.
  - eexists _, _. vm_compute. auto.
Qed.

(** ** C05 *)
Theorem C05_failed_add_changes_nothing :
  forall (Key Payload : Type) (hashf : Key -> N) (matches : Key -> Payload -> bool) (dflt : Payload) (c : cfg),
  policy_ok matches hashf -> config_ok c ->
  forall capacity t o t', reachable matches hashf dflt c capacity t -> op_ok matches o ->
  step hashf matches dflt c t o = Ok (t', RFailed) ->
  t' = t /\ aborts c = false /\
  (alloc_refused o = true \/ (overloaded t = true /\ kMaxCapacity c < 2 * cap t) \/ nelem t = kMaxCapacity c).
Proof. exact failed_add_nothing. Qed.
Print Assumptions C05_failed_add_changes_nothing.

Example C05_nonvacuous :
  exists t, reachable ex_match ex_hash (0, 0) ex_cfg 16 t /\
    step ex_hash ex_match (0, 0) ex_cfg t (OAdd 99 (99, 1) false) = Ok (t, RFailed).
Proof.
  eexists. split; [split; [exact ex_cap_ok|]; eexists; exists (firstn 13 ex_ops); eexists; split; [reflexivity|]; split|].
  - vm_compute. repeat constructor.
  - vm_compute. reflexivity.
  - vm_compute. reflexivity.
Qed.

(** ** C06 *)
(** Every constructed payload is destroyed exactly once, storage is never read unless constructed, nothing is
    constructed over a live payload and no table is freed while it holds one: in the model each of these is a fault
    of its own (Leak, DoubleFree, Uninit, MovedFrom), and the destructor is part of [life]. *)
Theorem C06_payload_lifetimes :
  forall (Key Payload : Type) (hashf : Key -> N) (matches : Key -> Payload -> bool) (dflt : Payload) (c : cfg),
  policy_ok matches hashf -> config_ok c ->
  forall capacity ops f, capacity_ok c capacity -> Forall (op_ok matches) ops ->
  life hashf matches dflt c capacity ops = Fault f -> f = Abort \/ f = AssertFail.
Proof.
  intros Key Payload hashf matches dflt c Hp Hc capacity ops f H1 H2 E.
  pose proof (life_refines Key Payload hashf matches dflt c Hp Hc capacity ops H1 H2) as H.
  rewrite E in H. destruct f; auto; contradiction.
Qed.
Print Assumptions C06_payload_lifetimes.

(** The ledger is not blind: forgetting a payload, or destroying it twice, is caught. *)
Example C06_ledger_sensitive :
  destroy (Table 16 0 0 (Some (repeat (Entry 0 (Val 7)) 16)) 16) = Fault Leak /\
  removeEntry (Cfg 24 true false) (Table 1 1 0 (Some [Entry 9 (@Raw N)]) 16) 0 = Fault DoubleFree /\
  read (Cfg 24 false false) (Table 1 1 0 (Some [Entry 9 (@Raw N)]) 16) 0 = Fault Uninit.
Proof. vm_compute. auto. Qed.

(** ** C07 *)
(** Full statement: [forall c capacity t, init c alloc ctor capacity = Ok (t, false) -> destroy t = Ok tt].
    It is false for every capacity: after a refused allocation the destructor walks [capacity_] entries of a
    null table. *)
Theorem C07_destroy_after_failed_init_refuted :
  forall (Payload : Type) c capacity, config_ok c -> capacity_ok c capacity -> aborts c = false ->
  exists t : table Payload, init c false ctor capacity = Ok (t, false) /\ destroy t = Fault NullDeref.
Proof. exact init_refused_destroy. Qed.
Print Assumptions C07_destroy_after_failed_init_refuted.

(** What holds: init() fails without damage when the capacity is over the limit, and with an aborting policy it
    never returns false. *)
Theorem C07_failed_init_partial :
  forall (Payload : Type) c alloc capacity (t : table Payload),
  init c alloc ctor capacity = Ok (t, false) ->
  aborts c = false /\ (kMaxCapacity c < capacity \/ alloc = false) /\
  (kMaxCapacity c < capacity -> 16 <= capacity -> t = ctor /\ destroy t = Ok tt).
Proof. exact init_false. Qed.
Print Assumptions C07_failed_init_partial.

Example C07_nonvacuous :
  @init N (Cfg 24 true false) true ctor 0x80000000 = Ok (ctor, false) /\
  @init N (Cfg 24 true true) true ctor 0x80000000 = Fault Abort.
Proof. vm_compute. auto. Qed.

(** ** C08 *)
(** Full statement: no history ends in an assertion failure, and the capacity never exceeds the maximum.  False:
    [grow] tests [capacity_ >= kMaxCapacity], but kMaxCapacity is not a power of two, so doubling from below it
    overshoots. *)
Theorem C08_overflow_reported_refuted :
  let ops := map (fun k => OAdd (N.of_nat k) (N.of_nat k, 0) true) (seq 0 14) in
  (* debug build: an internal assertion fails; release build: the capacity (32) exceeds the maximum (31) *)
  life ex_hash ex_match (0, 0) (Cfg (2 ^ 26) true false) 16 ops = Fault AssertFail /\
  match life ex_hash ex_match (0, 0) (Cfg (2 ^ 26) false false) 16 ops with
  | Ok (t, _) => kMaxCapacity (Cfg (2 ^ 26) false false) = 31 /\ cap t = 32
  | _ => False
  end.
Proof. vm_compute. auto. Qed.
Print Assumptions C08_overflow_reported_refuted.

(** The behaviour of growth for every reachable table and entry size. *)
Theorem C08_growth_at_the_limit_partial :
  forall (Key Payload : Type) (hashf : Key -> N) (matches : Key -> Payload -> bool) (dflt : Payload) (c : cfg),
  policy_ok matches hashf -> config_ok c ->
  forall capacity t alloc, reachable matches hashf dflt c capacity t -> overloaded t = true ->
  (kMaxCapacity c <= cap t -> checkDensity c alloc t = if aborts c then Fault Abort else Ok (t, false)) /\
  (cap t < kMaxCapacity c < 2 * cap t -> debug c = true -> checkDensity c alloc t = Fault AssertFail) /\
  (2 * cap t <= kMaxCapacity c -> checkDensity c alloc t <> Fault AssertFail).
Proof. exact growth_at_limit. Qed.
Print Assumptions C08_growth_at_the_limit_partial.

Theorem C08_release_never_asserts_partial :
  forall (Key Payload : Type) (hashf : Key -> N) (matches : Key -> Payload -> bool) (dflt : Payload) (c : cfg),
  policy_ok matches hashf -> config_ok c ->
  forall capacity ops, debug c = false -> capacity_ok c capacity -> Forall (op_ok matches) ops ->
  life hashf matches dflt c capacity ops <> Fault AssertFail.
Proof. exact release_no_assert. Qed.
Print Assumptions C08_release_never_asserts_partial.

(** A table of 2^26-byte entries is overloaded at 14 elements, below and at the limit. *)
Example C08_nonvacuous :
  exists t, reachable ex_match ex_hash (0, 0) (Cfg (2 ^ 26) true false) 16 t /\ overloaded t = true /\
    cap t < kMaxCapacity (Cfg (2 ^ 26) true false) < 2 * cap t.
Proof.
  eexists. split; [split|].
  - right. split; [now exists 4|]. split; [reflexivity|discriminate].
  - eexists. exists (map (fun k => OAdd (N.of_nat k) (N.of_nat k, 0) true) (seq 0 13)). eexists. split; [reflexivity|]. split.
    + vm_compute. repeat constructor.
    + vm_compute. reflexivity.
  - vm_compute. auto.
Qed.

(** ** C09 *)
Theorem C09_move_transfers :
  forall (Key Payload : Type) (hashf : Key -> N) (matches : Key -> Payload -> bool) (dflt : Payload) (c : cfg),
  policy_ok matches hashf -> config_ok c ->
  forall capacity t, reachable matches hashf dflt c capacity t ->
  let '(t2, old) := move_ctor t in
  t2 = t /\ elements old = 0 /\ iterate c (fun _ => false) old = Ok (old, []) /\ destroy old = Ok tt /\
  destroy t2 = Ok tt /\ clear old = Ok old.
Proof. exact move_transfers. Qed.
Print Assumptions C09_move_transfers.

(** ** C10 *)
Theorem C10_capacity_discipline :
  forall (Key Payload : Type) (hashf : Key -> N) (matches : Key -> Payload -> bool) (dflt : Payload) (c : cfg),
  policy_ok matches hashf -> config_ok c ->
  forall capacity t, reachable matches hashf dflt c capacity t ->
  (exists k, cap t = 2 ^ k) /\ N.max 16 capacity <= cap t /\
  length (entries t) = N.to_nat (cap t) /\
  (exists e, In e (entries t) /\ isFree e = true) /\
  estimateMemoryUse c t = sizeof_entry c * N.of_nat (length (entries t)) /\
  elements t < cap t.
Proof. exact capacity_discipline. Qed.
Print Assumptions C10_capacity_discipline.

(** The tables of C09 and C10: [C02_nonvacuous] gives a reachable one with 13 elements. *)
Example C09_C10_nonvacuous :
  exists t, reachable ex_match ex_hash (0, 0) ex_cfg 16 t /\ elements (fst (move_ctor t)) = 13 /\
    estimateMemoryUse ex_cfg t = 384.
Proof.
  eexists. split; [split; [exact ex_cap_ok|]; eexists; exists (firstn 13 ex_ops); eexists; split; [reflexivity|]; split|].
  - vm_compute. repeat constructor.
  - vm_compute. reflexivity.
  - vm_compute. auto.
Qed.

(** ** C11 *)
Theorem C11_insert_valid_after_add :
  forall (Key Payload : Type) (hashf : Key -> N) (matches : Key -> Payload -> bool) (dflt : Payload) (c : cfg),
  policy_ok matches hashf -> config_ok c ->
  forall capacity t k p alloc t' q, reachable matches hashf dflt c capacity t -> matches k p = true ->
  step hashf matches dflt c t (OAdd k p alloc) = Ok (t', RAdded q) \/
  step hashf matches dflt c t (OAddInPlace k p alloc) = Ok (t', RAdded q) \/
  step hashf matches dflt c t (OSet k p alloc) = Ok (t', RAdded q) ->
  q = p /\ step hashf matches dflt c t' (OFind k) = Ok (t', RFound p).
Proof. exact insert_valid. Qed.
Print Assumptions C11_insert_valid_after_add.

Theorem C11_overwrite_is_seen :
  forall (Key Payload : Type) (hashf : Key -> N) (matches : Key -> Payload -> bool) (dflt : Payload) (c : cfg),
  policy_ok matches hashf -> config_ok c ->
  forall capacity t k p t' q o, reachable matches hashf dflt c capacity t -> matches k p = true ->
  (o = OUpdate k p \/ exists alloc, o = OSet k p alloc) ->
  step hashf matches dflt c t o = Ok (t', RFound q) ->
  step hashf matches dflt c t' (OFind k) = Ok (t', RFound p).
Proof. exact overwrite_seen. Qed.
Print Assumptions C11_overwrite_is_seen.

(** The add of this example resizes the table (16 -> 32). *)
Example C11_nonvacuous :
  exists t t', reachable ex_match ex_hash (0, 0) ex_cfg 16 t /\ cap t = 16 /\ cap t' = 32 /\
    step ex_hash ex_match (0, 0) ex_cfg t (OAddInPlace 99 (99, 1) true) = Ok (t', RAdded (99, 1)).
Proof.
  eexists. eexists.
  split; [split; [exact ex_cap_ok|]; eexists; exists (firstn 13 ex_ops); eexists; split; [reflexivity|]; split|].
  - vm_compute. repeat constructor.
  - vm_compute. reflexivity.
  - split; [reflexivity|]. split; [|vm_compute; reflexivity]. reflexivity.
Qed.

(** ** C12 *)
Theorem C12_hashmap_is_finite_map :
  forall (K V : Type) (eqb : K -> K -> bool), (forall a b, eqb a b = true <-> a = b) ->
  forall (hashf : K -> N) (k0 : K) (v0 : V) (c : cfg) capacity (ops : list (mapop K V)),
  config_ok c -> capacity_ok c capacity ->
  match map_life eqb hashf k0 v0 c capacity ops with
  | Ok (_, outs) =>
      exists M, map_run v0
        (fun alloc => aborts c = false /\ (alloc = false \/ near_limit c (map (mapop_op v0) ops)))
        eqb (fun _ => None) ops outs M
  | Fault Abort =>
      aborts c = true /\
      (Exists (fun o => alloc_refused o = true) (map (mapop_op v0) ops) \/ near_limit c (map (mapop_op v0) ops))
  | Fault AssertFail => debug c = true /\ near_limit c (map (mapop_op v0) ops)
  | _ => False
  end.
Proof. exact map_life_refines. Qed.
Print Assumptions C12_hashmap_is_finite_map.

Example C12_nonvacuous :
  match map_life N.eqb ex_hash 0 0 ex_cfg 16
    [MAdd 1 10 true; MAdd 5 50 true; MPut 1 11 true; MGet 1; MRemove 1; MGet 1; MGet 5; MAddDefault 1 true; MSize; MAdd 1 99 true] with
  | Ok (_, outs) => outs = [RAdded (1, 10); RAdded (5, 50); RFound (1, 10); RFound (1, 11); RUnit; RAbsent; RFound (5, 50);
      RAdded (1, 0); RNum 2; RFound (1, 0)]
  | _ => False
  end.
Proof. vm_compute. reflexivity. Qed.

(** ** C13 *)
Theorem C13_hashset_is_finite_set :
  forall (K : Type) (eqb : K -> K -> bool), (forall a b, eqb a b = true <-> a = b) ->
  forall (hashf : K -> N) (k0 : K) (c : cfg) capacity (ops : list (setop K)),
  config_ok c -> capacity_ok c capacity ->
  match set_life eqb hashf k0 c capacity ops with
  | Ok (_, outs) =>
      exists X, set_run
        (fun alloc => aborts c = false /\ (alloc = false \/ near_limit c (map setop_op ops)))
        eqb (fun _ => false) ops outs X
  | Fault Abort =>
      aborts c = true /\
      (Exists (fun o => alloc_refused o = true) (map setop_op ops) \/ near_limit c (map setop_op ops))
  | Fault AssertFail => debug c = true /\ near_limit c (map setop_op ops)
  | _ => False
  end.
Proof. exact set_life_refines. Qed.
Print Assumptions C13_hashset_is_finite_set.

Example C13_nonvacuous :
  match set_life N.eqb ex_hash 0 ex_cfg 16
    [SAdd 1 true; SAdd 1 true; SAdd 5 true; SSize; SRemove 1; SHas 1; SHas 5; SClear; SSize] with
  | Ok (_, outs) => outs = [RAdded 1; RFound 1; RAdded 5; RNum 2; RUnit; RAbsent; RFound 5; RUnit; RNum 0]
  | _ => False
  end.
Proof. vm_compute. reflexivity. Qed.
