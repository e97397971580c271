(** C119: adding to a table what one of its own payloads holds. *)
From Verif Require Import Base HashTableModel HashTableSpec HashTableProofs HashTableProps
  HashTableMemModel HashTableMemSpec HashTableMemProofs HashTableMemProps HashAliasModel HashAliasProofs.
Local Open Scope N_scope.

(** [r = find(k'); ... i = findForAdd(k); add(i, part of *r)] against the same program working on a copy of the part.  With
    HashMap the two agree always.  With HashTable and HashSet they agree unless the add changes the size of the table
    (estimateMemoryUse()); then the program reads freed memory. *)
Theorem C119_alias_partial :
  forall (Key Payload : Type) (hashf : Key -> N) (matches : Key -> Payload -> bool) (dflt : Payload) (c : cfg),
  policy_ok matches hashf -> config_ok c ->
  forall capacity ops h0 m h outs, capacity_ok c capacity -> heap_ok h0 -> Forall (op_ok matches) ops ->
  m_use hashf matches dflt c h0 capacity ops = Ok (m, h, outs) ->
  forall k k' (conv : Payload -> Payload) alloc p,
  m_step hashf matches dflt c h m (OFind k') = Ok (m, h, RFound p) ->
  let with_copy := m_step hashf matches dflt c h m (OAdd k (conv p) alloc) in
  add_alias hashf matches c true h m k k' conv alloc = with_copy /\
  ((forall m' h' r, with_copy = Ok (m', h', r) -> estimateMemoryUse c (obj m') = estimateMemoryUse c (obj m)) ->
   add_alias hashf matches c false h m k k' conv alloc = with_copy).
Proof.
  intros Key Payload hashf matches dflt c Hp Hc capacity ops h0 m h outs Hk Hh Ho E k k' conv alloc p Ef. cbv zeta.
  destruct (use_reachable Key Payload hashf matches dflt c h0 Hh Hp Hc capacity ops m h outs Hk Ho E) as (HR & l & HI).
  destruct (alias_ok Key Payload hashf matches dflt c h0 Hh Hc _ m h l k k' conv alloc p HR HI Ef) as (H1 & H2).
  split; [exact H1|]. intros Hs.
  destruct (m_step hashf matches dflt c h m (OAdd k (conv p) alloc)) as [[[m' h'] r]|f|]; auto.
  destruct H2 as [H2 H3]. destruct (N.eq_dec (cap (obj m')) (cap (obj m))) as [E2|E2]; [now apply H2|].
  specialize (Hs _ _ _ eq_refl). unfold estimateMemoryUse in Hs. apply N.mul_cancel_l in Hs; [contradiction|].
  unfold config_ok, kMaxCapacity in Hc. intros Ez. rewrite Ez in Hc. vm_compute in Hc. now apply Hc.
Qed.
Print Assumptions C119_alias_partial.

Theorem C119_resizing_add_refuted :
  forall (Key Payload : Type) (hashf : Key -> N) (matches : Key -> Payload -> bool) (dflt : Payload) (c : cfg),
  policy_ok matches hashf -> config_ok c ->
  forall capacity ops h0 m h outs, capacity_ok c capacity -> heap_ok h0 -> Forall (op_ok matches) ops ->
  m_use hashf matches dflt c h0 capacity ops = Ok (m, h, outs) ->
  forall k k' (conv : Payload -> Payload) alloc p m' h' r,
  m_step hashf matches dflt c h m (OFind k') = Ok (m, h, RFound p) ->
  m_step hashf matches dflt c h m (OAdd k (conv p) alloc) = Ok (m', h', r) ->
  estimateMemoryUse c (obj m') <> estimateMemoryUse c (obj m) ->
  add_alias hashf matches c false h m k k' conv alloc = Fault UseAfterFree.
Proof.
  intros Key Payload hashf matches dflt c Hp Hc capacity ops h0 m h outs Hk Hh Ho E k k' conv alloc p m' h' r Ef Ea Hs.
  destruct (use_reachable Key Payload hashf matches dflt c h0 Hh Hp Hc capacity ops m h outs Hk Ho E) as (HR & l & HI).
  destruct (alias_ok Key Payload hashf matches dflt c h0 Hh Hc _ m h l k k' conv alloc p HR HI Ef) as (_ & H2).
  rewrite Ea in H2. apply H2. intros E2. apply Hs. unfold estimateMemoryUse. now rewrite E2.
Qed.
Print Assumptions C119_resizing_add_refuted.

(** A table of (number, double) pairs with room for 16: with 12 pairs in it the next add still fits, with 13 it grows; after a
    clear() it shrinks. *)
Definition grown (n : nat) := map (fun k => OAdd (N.of_nat k) (N.of_nat k, 2 * N.of_nat k) true) (seq 0 n).
Definition succ_of (p : N * N) : N * N := (fst p + 1000, snd p).
Definition try (in_map : bool) (ops : list (op N (N * N))) (k : N) : outcome (out (N * N)) :=
  do (m, h, _) <- m_use ex_hash ex_match (0, 0) ex_cfg ex_heap 16 ops;
  do (_, _, r) <- add_alias ex_hash ex_match ex_cfg in_map h m (k + 1000) k succ_of true;
  Ok r.
Example C119_nonvacuous :
  try false (grown 12) 7 = Ok (RAdded (1007, 14)) /\ try true (grown 12) 7 = Ok (RAdded (1007, 14)) /\
  try false (grown 13) 7 = Fault UseAfterFree /\ try true (grown 13) 7 = Ok (RAdded (1007, 14)) /\
  try false (grown 13) 17 = Ok RAbsent /\
  try false (grown 50 ++ [OClear; OAdd 1 (1, 2) true]) 1 = Fault UseAfterFree.
Proof. vm_compute. repeat split. Qed.
Lemma ex_grown_ok n : Forall (op_ok ex_match) (grown n).
Proof. unfold grown. apply Forall_forall. intros o H. apply in_map_iff in H as (k & <- & _). cbn. unfold ex_match. cbn. now rewrite N.eqb_refl. Qed.
