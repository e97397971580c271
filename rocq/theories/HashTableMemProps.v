(** Properties C05, C06, C07: the memory blocks of HashTable.  Statements only.

    [m_life h capacity ops] is the life of a table (HashTableProps) in a heap [h] that other components use too;
    [m_use] is the same without the destructor.  [all_returned] is in HashTableMemSpec. *)
From Verif Require Import Base BitsModel HashTableModel HashTableSpec HashTableProofs HashTableProps
  HashTableMemModel HashTableMemSpec HashTableMemProofs.
Local Open Scope N_scope.

Lemma init_granted (Payload : Type) c capacity : config_ok c -> capacity_ok c capacity ->
  exists t0, init c true (@ctor Payload) capacity = Ok (t0, true).
Proof.
  intros Hc Hk. destruct (init_ok unit Payload (fun _ => 0) (fun _ _ => true) c _ capacity eq_refl Hc Hk) as (t & E & _). eauto.
Qed.

(** ** C06: the heap version computes exactly what HashTableProps talks about ... *)
Theorem C06_heap_faithful :
  forall (Key Payload : Type) (hashf : Key -> N) (matches : Key -> Payload -> bool) (dflt : Payload) (c : cfg),
  config_ok c -> forall capacity ops h0, capacity_ok c capacity -> heap_ok h0 ->
  match life hashf matches dflt c capacity ops with
  | Ok (_, outs) => exists h, m_life hashf matches dflt c h0 capacity ops = Ok (h, outs)
  | Fault f => m_life hashf matches dflt c h0 capacity ops = Fault f
  | Diverge => m_life hashf matches dflt c h0 capacity ops = Diverge
  end.
Proof.
  intros Key Payload hashf matches dflt c Hc capacity ops h0 Hk Hh.
  pose proof (life_follows Key Payload hashf matches dflt c h0 Hh capacity ops) as H.
  destruct (life _ _ _ _ _ _) as [[t outs]|f|]; auto.
  destruct H as (_ & H). destruct (H (init_granted _ _ _ Hc Hk)) as (h & E & _). eauto.
Qed.
Print Assumptions C06_heap_faithful.

(** ... every block it takes from the heap is given back, exactly once, and no other block is touched. *)
Theorem C06_blocks_returned :
  forall (Key Payload : Type) (hashf : Key -> N) (matches : Key -> Payload -> bool) (dflt : Payload) (c : cfg),
  config_ok c -> forall capacity ops h0 h outs, capacity_ok c capacity -> heap_ok h0 ->
  m_life hashf matches dflt c h0 capacity ops = Ok (h, outs) -> all_returned h0 h.
Proof.
  intros Key Payload hashf matches dflt c Hc capacity ops h0 h outs Hk Hh E.
  pose proof (life_follows Key Payload hashf matches dflt c h0 Hh capacity ops) as H.
  destruct (life _ _ _ _ _ _) as [[t outs']|f|]; try congruence.
  destruct H as (_ & H). destruct (H (init_granted _ _ _ Hc Hk)) as (h' & E' & R).
  rewrite E in E'. injection E' as -> _. exact R.
Qed.
Print Assumptions C06_blocks_returned.

(** At any moment of its life the table owns exactly one block, of estimateMemoryUse() bytes. *)
Theorem C06_one_block :
  forall (Key Payload : Type) (hashf : Key -> N) (matches : Key -> Payload -> bool) (dflt : Payload) (c : cfg),
  config_ok c -> forall capacity ops h0 m h outs, capacity_ok c capacity -> heap_ok h0 ->
  m_use hashf matches dflt c h0 capacity ops = Ok (m, h, outs) ->
  exists b, ptr m = Some b /\ ~ In b (map fst (live h0)) /\
    live h = (b, estimateMemoryUse c (obj m)) :: live h0.
Proof.
  intros Key Payload hashf matches dflt c Hc capacity ops h0 m h outs Hk Hh E.
  destruct (init_granted Payload _ _ Hc Hk) as (t0 & Hi).
  pose proof (use_one_block Key Payload hashf matches dflt c h0 Hh capacity ops m h outs t0 Hi E) as (b & l & Hp & Hl & _ & _ & Hin).
  exists b. split; [exact Hp|]. split.
  - intros H. apply in_map_iff in H as ((x & y) & <- & H). apply (fresh_live h0 Hh) in H. cbn [fst] in Hin.
    assert ((next h0 <= x < next h)%nat) by (apply Hin; now left). lia.
  - rewrite Hl. unfold estimateMemoryUse. now rewrite N.mul_comm.
Qed.
Print Assumptions C06_one_block.

(** ** C05: an operation that reports failure leaves the heap alone too. *)
Theorem C05_failed_add_keeps_heap :
  forall (Key Payload : Type) (hashf : Key -> N) (matches : Key -> Payload -> bool) (dflt : Payload) (c : cfg),
  config_ok c -> forall capacity ops h0 m h outs o m' h', capacity_ok c capacity -> heap_ok h0 ->
  m_use hashf matches dflt c h0 capacity ops = Ok (m, h, outs) ->
  m_step hashf matches dflt c h m o = Ok (m', h', RFailed) -> m' = m /\ h' = h.
Proof.
  intros Key Payload hashf matches dflt c Hc capacity ops h0 m h outs o m' h' Hk Hh E.
  destruct (init_granted Payload _ _ Hc Hk) as (t0 & Hi).
  pose proof (use_one_block Key Payload hashf matches dflt c h0 Hh capacity ops m h outs t0 Hi E) as HR.
  exact (proj2 (step_follows Key Payload hashf matches dflt c h0 Hh m h o HR) m' h').
Qed.
Print Assumptions C05_failed_add_keeps_heap.

(** ** C07: a failed init() takes nothing from the heap. *)
Theorem C07_failed_init_keeps_heap :
  forall (Payload : Type) (c : cfg) alloc capacity h0 (m : mtable Payload) h, heap_ok h0 ->
  m_init c alloc h0 m_ctor capacity = Ok (m, h, false) -> h = h0 /\ ptr m = None.
Proof.
  intros Payload c alloc capacity h0 m h Hh E.
  pose proof (init_follows Payload c h0 alloc capacity) as H.
  destruct (init c alloc ctor capacity) as [[t ok]|f|]; try congruence.
  destruct H as (m' & h' & E' & _ & H). rewrite E in E'. injection E' as <- <- <-. exact H.
Qed.
Print Assumptions C07_failed_init_keeps_heap.

(** Calling init() a second time on a table loses its block for good: whatever happens to the table afterwards
    cannot give it back, since no field refers to it any more. *)
Theorem C06_second_init_leaks :
  forall (Payload : Type) (c : cfg) capacity h0 (m : mtable Payload) h, heap_ok h0 -> config_ok c -> capacity_ok c capacity ->
  m_init c true h0 m_ctor capacity = Ok (m, h, true) ->
  exists b m' h', ptr m = Some b /\ m_init c true h m capacity = Ok (m', h', true) /\
    In (b, estimateMemoryUse c (obj m)) (live h') /\ ptr m' <> Some b.
Proof.
  intros Payload c capacity h0 m h Hh Hc Hk E. revert E. unfold m_init. cbv zeta.
  set (go := fun _ => _).
  destruct (capacity <? kMinCapacity); [|destruct (kMaxCapacity c <? capacity)].
  2: { unfold reportAllocationOverflow. destruct (aborts c); discriminate. }
  all: subst go; cbv beta; unfold m_createTable;
    (destruct (assert_ _ _) as [[]|f|]; cbn [bind]; try discriminate);
    (destruct (createTable c true _) as [[l|]|f|]; cbn [bind]; try discriminate);
    unfold h_malloc; cbn [bind]; intros [= <- <-]; cbn [ptr obj next live];
    eexists _, _, _; (split; [reflexivity|]); (split; [reflexivity|]); cbn [live ptr];
    (split; [right; left; unfold estimateMemoryUse; cbn [cap]; now rewrite N.mul_comm | intros [= H]; lia]).
Qed.
Print Assumptions C06_second_init_leaks.

Definition ex_heap : heap := Heap [(3%nat, 100); (1%nat, 7)] [2%nat] 5%nat.
Lemma ex_heap_ok : heap_ok ex_heap.
Proof. split; cbn; repeat constructor; cbn; intuition lia. Qed.
(** The life of HashTableProps in a heap with two foreign blocks: three blocks are used in turn. *)
Example C06_blocks_nonvacuous :
  match m_life ex_hash ex_match (0, 0) ex_cfg ex_heap 16 ex_ops with
  | Ok (h, _) => live h = [(3%nat, 100); (1%nat, 7)] /\ freed h = [7%nat; 6%nat; 5%nat; 2%nat] /\ next h = 8%nat
  | _ => False
  end.
Proof. vm_compute. repeat split. Qed.
Example C05_heap_nonvacuous :
  match m_use ex_hash ex_match (0, 0) ex_cfg ex_heap 16
          (map (fun k => OAdd (N.of_nat k) (N.of_nat k, 1) true) (seq 0 13)) with
  | Ok (m, h, _) => m_step ex_hash ex_match (0, 0) ex_cfg h m (OAdd 77 (77, 1) false) = Ok (m, h, RFailed)
  | _ => False
  end.
Proof. vm_compute. reflexivity. Qed.
