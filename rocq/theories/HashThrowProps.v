(** Property theorems C133: am-hashtable.h and am-hashmap.h with payloads whose constructors may throw. *)
From Verif Require Import Base BitsModel HashTableModel HashTableSpec HashTableProofs HashTableProps
  HashThrowModel HashThrowSpec HashThrowProofs.
Local Open Scope N_scope.

(** Full statement (false): a payload constructor that throws inside add leaves a usable table.  Take any table in
    its life and any insertion that would add a payload: when that payload's constructor throws instead, the entry is
    counted and found although it holds nothing, reading it reads raw memory, and removing it or ending the table
    destroys a payload that was never built. *)
Theorem C133_add_exception_refuted :
  forall (Key Payload : Type) (hashf : Key -> N) (matches : Key -> Payload -> bool) (dflt : Payload) (c : cfg),
  policy_ok matches hashf -> config_ok c ->
  forall capacity t k p alloc t',
  reachable matches hashf dflt c capacity t ->
  step hashf matches dflt c t (OAdd k p alloc) = Ok (t', RAdded p) ->
  exists i t1, findForAdd hashf matches c t k = Ok i /\ add_throws c alloc t i = Ok (t1, true)
    /\ elements t1 = elements t + 1 /\ destroy t1 = Fault DoubleFree
    /\ exists s, found t1 s = Ok true /\ read c t1 s = Fault Uninit /\ remove c t1 s = Fault DoubleFree.
Proof.
  intros Key Payload hashf matches dflt c Hpol Hcfg capacity t k p alloc t' Hr E. cbn [step] in E.
  destruct (findForAdd hashf matches c t k) as [i| |] eqn:Ef; [|discriminate|discriminate]. cbn [bind] in E.
  destruct (found t (fst i)) as [b| |] eqn:Eb; [|discriminate|discriminate]. cbn [bind] in E.
  destruct b; [destruct (read c t (fst i)); discriminate|]. unfold add in E.
  destruct (internalAdd c alloc t i) as [[[t1 i1] ok]| |] eqn:Ei; [|discriminate|discriminate]. cbn [bind] in E.
  destruct ok; [|discriminate].
  assert (Ea : add_throws c alloc t i = Ok (t1, true)) by (unfold add_throws; rewrite Ei; reflexivity).
  destruct (add_refuted Key Payload hashf matches dflt c Hpol (N.max 16 capacity) capacity t k i eq_refl Hcfg Hr
              Ef Eb alloc t1 Ea) as (H1 & H2 & H3).
  exists i, t1. auto 10.
Qed.
Print Assumptions C133_add_exception_refuted.

(** The same for the payloads that a change of size moves: if checkDensity (or, through it, add) would change the
    capacity of a table, and the move of its [n]-th payload throws, the table already is the new one, half filled:
    ending it destroys a payload never built, and the old block is lost with all but the [n] payloads moved before. *)
Theorem C133_resize_exception_refuted :
  forall (Key Payload : Type) (hashf : Key -> N) (matches : Key -> Payload -> bool) (dflt : Payload) (c : cfg),
  policy_ok matches hashf -> config_ok c ->
  forall capacity t t' n,
  reachable matches hashf dflt c capacity t ->
  checkDensity c true t = Ok (t', true) -> cap t' <> cap t -> (N.of_nat n < elements t) ->
  exists t1 leak, checkDensity_throws c n t = Ok (t1, leak, true)
    /\ destroy t1 = Fault DoubleFree
    /\ cap t1 = cap t' /\ elements t1 = elements t
    /\ N.of_nat (alive leak) = elements t - N.of_nat n.
Proof.
  intros Key Payload hashf matches dflt c Hpol Hcfg capacity t t' n Hr E Hne Hn. unfold elements in *.
  destruct (reachable_inv _ _ hashf matches dflt c Hpol (N.max 16 capacity) capacity t eq_refl Hcfg Hr) as (l & H).
  destruct (checkDensity_throws_ok Key Payload hashf matches c (N.max 16 capacity) n t l t' H Hcfg E Hne)
    as (t1 & leak & E1 & Hd & Ha & Hc & He); [lia|].
  exists t1, leak. repeat split; auto. lia.
Qed.
Print Assumptions C133_resize_exception_refuted.

(** What holds: HashMap::add builds its Entry in a local variable before it touches the table, so in every program
    the insertions that throw there - keys and values mixed with all other calls in any order - leave the map exactly
    as it was, and nothing faults until the end of the table. *)
Theorem C133_entry_exceptions_partial :
  forall (Key Payload : Type) (hashf : Key -> N) (matches : Key -> Payload -> bool) (dflt : Payload) (c : cfg),
  policy_ok matches hashf -> config_ok c ->
  forall capacity ops, capacity_ok c capacity -> Forall (op_ok matches) (plain ops) ->
  Forall (fun o => alloc_refused o = false) (plain ops) -> ~ near_limit c (plain ops) ->
  exists t outs S, xlife hashf matches dflt c capacity ops = Ok (t, outs)
    /\ xspec_run matches (fun _ => False) [] ops outs S.
Proof.
  intros Key Payload hashf matches dflt c Hpol Hcfg capacity ops.
  exact (xlife_ok Key Payload hashf matches dflt c Hpol (N.max 16 capacity) capacity ops eq_refl Hcfg).
Qed.
Print Assumptions C133_entry_exceptions_partial.

(** The state right after such an exception is the state before it. *)
Theorem C133_entry_exception_changes_nothing :
  forall (Key Payload : Type) (hashf : Key -> N) (matches : Key -> Payload -> bool) (dflt : Payload) (c : cfg),
  policy_ok matches hashf -> config_ok c ->
  forall capacity t k, reachable matches hashf dflt c capacity t ->
  (exists q, step hashf matches dflt c t (OFind k) = Ok (t, RFound q)
     /\ xstep hashf matches dflt c t (EntryThrows k) = Ok (t, Out (RFound q)))
  \/ (step hashf matches dflt c t (OFind k) = Ok (t, RAbsent)
     /\ xstep hashf matches dflt c t (EntryThrows k) = Ok (t, Threw)).
Proof.
  intros Key Payload hashf matches dflt c Hpol Hcfg capacity t k Hr.
  destruct (reachable_inv _ _ hashf matches dflt c Hpol (N.max 16 capacity) capacity t eq_refl Hcfg Hr) as (l & H).
  destruct (HashTableFacts.lookup_result Key Payload hashf matches dflt c t l k (N.max 16 capacity) H) as (r & E1 & E2 & Hcase).
  cbn [step xstep] in *.
  destruct (findForAdd hashf matches c t k) as [i| |]; [|discriminate|discriminate]. cbn [bind] in *.
  destruct (found t (fst i)) as [[]| |]; [| |discriminate|discriminate]; cbn [bind] in *.
  - destruct (read c t (fst i)) as [q| |]; [|discriminate|discriminate]. cbn [bind] in *. injection E2 as <-. left. eauto.
  - injection E2 as <-. right. auto.
Qed.
Print Assumptions C133_entry_exception_changes_nothing.

(** If there is no n-th payload to move, nothing throws. *)
Lemma rehash_throws_none {Payload} (c : cfg) (old : list (entry Payload)) : forall n l cp, (length (filter isLive old) <= n)%nat ->
  rehash_throws c n old l cp = bind (rehash c old l cp) (fun ro => Ok (fst ro, snd ro, false)).
Proof.
  induction old as [|e old IH]; intros n l cp Hn; [reflexivity|]. cbn [rehash rehash_throws filter] in *. destruct (isLive e).
  - destruct n as [|n]; [cbn in Hn; lia|]. cbn [length] in Hn.
    destruct (insertUnique c l cp (e_hash e)) as [s| |]; cbn [bind]; [|reflexivity|reflexivity].
    destruct (slot_get l s) as [e1| |]; cbn [bind]; [|reflexivity|reflexivity].
    destruct (move_out c e) as [[p e']| |]; cbn [bind]; [|reflexivity|reflexivity].
    destruct (construct (setHash e1 (e_hash e)) p) as [e2| |]; cbn [bind]; [|reflexivity|reflexivity].
    destruct (slot_set l s e2) as [l'| |]; cbn [bind]; [|reflexivity|reflexivity].
    destruct (destruct_ e') as [e''| |]; cbn [bind]; [|reflexivity|reflexivity].
    rewrite IH by lia. destruct (rehash c old l' cp) as [[r o]| |]; reflexivity.
  - destruct (destruct_ e) as [e''| |]; cbn [bind]; [|reflexivity|reflexivity].
    rewrite IH by lia. destruct (rehash c old l cp) as [[r o]| |]; reflexivity.
Qed.
Lemma checkDensity_throws_none {Payload} c n (t : table Payload) : (forall l, tbl t = Some l -> length (filter isLive l) <= n)%nat ->
  checkDensity_throws c n t = match checkDensity c true t with
    | Ok (t', ok) => Ok (t', [], false) | Fault e => Fault e | Diverge => Diverge end.
Proof.
  intros H. assert (G : forall ncp, changeCapacity_throws c n t ncp = match changeCapacity c true t ncp with
    | Ok (t', ok) => Ok (t', [], false) | Fault e => Fault e | Diverge => Diverge end).
  { intros ncp. unfold changeCapacity_throws, changeCapacity, createTable. destruct (assert_ (debug c) (ncp <=? kMaxCapacity c)) as [u| |]; cbn [bind]; [|reflexivity|reflexivity].
    cbn [am_malloc_table bind deref]. destruct (tbl t) as [l|] eqn:Et; cbn [deref bind]; [|reflexivity].
    rewrite rehash_throws_none by auto. destruct (rehash c l _ ncp) as [[l' o]| |]; cbn [bind fst snd]; [|reflexivity|reflexivity].
    destruct (am_free o); reflexivity. }
  unfold checkDensity_throws, checkDensity, shrink, grow. destruct (underloaded t).
  - destruct (_ <? _); [reflexivity|apply G].
  - destruct (overloaded t); [|reflexivity]. destruct (_ <=? cap t); [|apply G]. destruct (reportAllocationOverflow c); reflexivity.
Qed.
Lemma live_alive {Payload} (l : list (entry Payload)) : Forall (@sane Payload) l -> length (filter isLive l) = alive l.
Proof.
  unfold alive. induction 1 as [|e l He _ IH]; [reflexivity|]. cbn [filter]. unfold sane in He. destruct (isLive e); cbn [andb]; [|exact IH].
  destruct He as [p ->]. cbn. now rewrite IH.
Qed.
(** When no payload constructor throws (the exception would come after all payloads have moved), the model with
    exceptions is the model without: same table, nothing lost, no exception. *)
Theorem C133_resize_without_exception :
  forall (Key Payload : Type) (hashf : Key -> N) (matches : Key -> Payload -> bool) (dflt : Payload) (c : cfg),
  policy_ok matches hashf -> config_ok c ->
  forall capacity t t' ok n,
  reachable matches hashf dflt c capacity t ->
  checkDensity c true t = Ok (t', ok) -> elements t <= N.of_nat n ->
  checkDensity_throws c n t = Ok (t', [], false).
Proof.
  intros Key Payload hashf matches dflt c Hpol Hcfg capacity t t' ok n Hr E Hn. unfold elements in *.
  destruct (reachable_inv _ _ hashf matches dflt c Hpol (N.max 16 capacity) capacity t eq_refl Hcfg Hr) as (l & H).
  rewrite checkDensity_throws_none, E; [reflexivity|]. intros l' Hl'.
  pose proof (i_tbl _ _ _ _ _ _ _ _ H) as Ht. assert (l' = l) as -> by congruence.
  pose proof (inv_sane Key Payload hashf matches c (N.max 16 capacity) t l H) as Hs.
  rewrite (live_alive l Hs), (alive_contents Payload l Hs). pose proof (i_nelem _ _ _ _ _ _ _ _ H). lia.
Qed.
Print Assumptions C133_resize_without_exception.

(** Concrete runs: a table with three entries; the exceptions above on it. *)
Definition ex_three : list (op N (N * N)) := [OAdd 1 (1, 10) true; OAdd 5 (5, 50) true; OAdd 2 (2, 20) true].
Definition ex_thirteen : list (op N (N * N)) :=
  map (fun k => OAdd (N.of_nat k) (N.of_nat k, N.of_nat k * 10) true) (seq 0 13).
Definition after (ops : list (op N (N * N))) (P : table (N * N) -> Prop) : Prop :=
  match init ex_cfg true ctor 16 with
  | Ok (t0, true) => match run ex_hash ex_match (0, 0) ex_cfg t0 ops with Ok (t, _) => P t | _ => False end
  | _ => False
  end.
Example C133_nonvacuous :
  after ex_three (fun t =>
    match step ex_hash ex_match (0, 0) ex_cfg t (OAdd 9 (9, 90) true) with
    | Ok (_, r) => r = RAdded (9, 90) | _ => False end
    /\ match findForAdd ex_hash ex_match ex_cfg t 9 with
       | Ok i => match add_throws ex_cfg true t i with
                 | Ok (t1, b) => b = true /\ elements t1 = 4 /\ destroy t1 = Fault DoubleFree | _ => False end
       | _ => False end)
  /\ after ex_thirteen (fun t =>
       match checkDensity ex_cfg true t with Ok (t', b) => b = true /\ cap t = 16 /\ cap t' = 32 | _ => False end
       /\ match checkDensity_throws ex_cfg 4 t with
          | Ok (t1, leak, b) => b = true /\ cap t1 = 32 /\ alive leak = 9%nat /\ destroy t1 = Fault DoubleFree
          | _ => False end)
  /\ match xlife ex_hash ex_match (0, 0) ex_cfg 16
             [EntryThrows 1; Plain (OAdd 1 (1, 10) true); EntryThrows 1; EntryThrows 5; Plain (OFind 5);
              Plain (ORemove 1); EntryThrows 1; Plain OElements] with
     | Ok (_, outs) => outs = [Threw; Out (RAdded (1, 10)); Out (RFound (1, 10)); Threw; Out RAbsent; Out RUnit; Threw;
                               Out (RNum 0)]
     | _ => False end.
Proof. vm_compute. repeat split. Qed.
