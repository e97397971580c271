(** C121: payload destructors that use the table. *)
From Verif Require Import Base BitsSpec HashTableModel HashTableSpec HashReenterModel HashReenterSpec HashReenterProofs.
Local Open Scope N_scope.

(** Destructors that look up and remove elements of strictly lower rank, in a program that calls clear() before the table is
    destroyed: nested removals behave as if the element had been taken out before its destructor ran, clear() destroys each
    element once, nothing is left, and every payload added is destroyed exactly once.  [depth] bounds the ranks. *)
Theorem C121_ranked_destructors_partial :
  forall (Key Payload : Type) (hashf : Key -> N) (matches : Key -> Payload -> bool) (dflt : Payload) (c : cfg)
         (dtor : Payload -> list (hop Key Payload)) (rank : Payload -> nat) (depth : nat) (capacity : N) (os : list (hop Key Payload)),
    policy_ok matches hashf -> tame matches dtor rank ->
    config_ok c -> capacity_ok c capacity -> Forall (hop_ok matches rank depth) os ->
    let program := os ++ [HClear] in
    let near := near_limit c (map as_op program) in
    (debug c = true /\ near /\ life_re hashf matches dflt c dtor depth capacity program = Fault AssertFail) \/
    ((Exists (fun o => alloc_refused o = true) (map as_op program) \/ near) /\ aborts c = true /\
       life_re hashf matches dflt c dtor depth capacity program = Fault Abort) \/
    (exists ev, life_re hashf matches dflt c dtor depth capacity program = Ok ev /\
       ideal matches dtor (fun a => aborts c = false /\ (a = false \/ near)) [] program ev [] /\
       Permutation (added ev) (destroyed ev)).
Proof.
  intros Key Payload hashf matches dflt c dtor rank depth capacity os Hpol Ht Hk Hc Hops.
  now apply (life_re_ok Key Payload hashf matches dflt c dtor rank (N.max 16 capacity) Hpol Ht).
Qed.

(** The property fails for other destructors.  The element being removed is still found, and counted, by its own destructor. *)
Theorem C121_own_lookup_refuted :
  forall (Key Payload : Type) (hashf : Key -> N) (matches : Key -> Payload -> bool) (dflt : Payload) (c : cfg)
         (dtor : Payload -> list (hop Key Payload)) (capacity : N) (t : table Payload) (k k' : Key) (p : Payload) (depth : nat),
    policy_ok matches hashf -> config_ok c -> capacity_ok c capacity -> filled hashf matches dflt c dtor capacity t ->
    step hashf matches dflt c t (OFind k) = Ok (t, RFound p) -> matches k' p = true -> dtor p = [HFind k'; HElements] ->
    exists t', exec hashf matches dflt c dtor (S (S depth)) [] t [HRemove k] = Ok (t', [VDestroyed p; VFound p; VCount (elements t)]).
Proof.
  intros Key Payload hashf matches dflt c dtor capacity t k k' p depth Hpol Hk Hc Hf E Hm Hd.
  destruct (filled_inv Key Payload hashf matches dflt c dtor (N.max 16 capacity) Hpol capacity t eq_refl Hk Hc Hf) as (l & H).
  eapply own_lookup; eassumption.
Qed.
(** A destructor that removes its own element destroys it twice. *)
Theorem C121_own_remove_refuted :
  forall (Key Payload : Type) (hashf : Key -> N) (matches : Key -> Payload -> bool) (dflt : Payload) (c : cfg)
         (dtor : Payload -> list (hop Key Payload)) (capacity : N) (t : table Payload) (k k' : Key) (p : Payload) rest (depth : nat),
    policy_ok matches hashf -> config_ok c -> capacity_ok c capacity -> filled hashf matches dflt c dtor capacity t ->
    step hashf matches dflt c t (OFind k) = Ok (t, RFound p) -> matches k' p = true -> dtor p = HRemove k' :: rest ->
    exec hashf matches dflt c dtor (S (S depth)) [] t [HRemove k] = Fault DoubleFree.
Proof.
  intros Key Payload hashf matches dflt c dtor capacity t k k' p rest depth Hpol Hk Hc Hf E Hm Hd.
  destruct (filled_inv Key Payload hashf matches dflt c dtor (N.max 16 capacity) Hpol capacity t eq_refl Hk Hc Hf) as (l & H).
  eapply own_remove; eassumption.
Qed.
(** So does one that clears the table. *)
Theorem C121_nested_clear_refuted :
  forall (Key Payload : Type) (hashf : Key -> N) (matches : Key -> Payload -> bool) (dflt : Payload) (c : cfg)
         (dtor : Payload -> list (hop Key Payload)) (capacity : N) (t : table Payload) (k : Key) (p : Payload) (depth : nat),
    policy_ok matches hashf -> config_ok c -> capacity_ok c capacity -> filled hashf matches dflt c dtor capacity t ->
    step hashf matches dflt c t (OFind k) = Ok (t, RFound p) ->
    dtor p = [HClear] -> (forall q, matches k q = false -> dtor q = []) ->
    exec hashf matches dflt c dtor (S (S depth)) [] t [HRemove k] = Fault DoubleFree.
Proof.
  intros Key Payload hashf matches dflt c dtor capacity t k p depth Hpol Hk Hc Hf E Hd Ho.
  destruct (filled_inv Key Payload hashf matches dflt c dtor (N.max 16 capacity) Hpol capacity t eq_refl Hk Hc Hf) as (l & H).
  eapply nested_clear; eassumption.
Qed.

(** *** Concrete programs: keys are payloads *)
Definition own (k p : N) : bool := N.eqb k p.
Lemma own_policy h : policy_ok own h.
Proof. intros k k' p Hk Hk'. unfold own in *. apply N.eqb_eq in Hk, Hk'. subst. auto. Qed.
Definition cf (dbg : bool) : cfg := Cfg 16 dbg true.
Definition put (n : N) : hop N N := HAdd n n true.
Definition puts (ns : list N) : list (hop N N) := map put ns.

(** A destructor running inside clear() looks up an element that is still there, and that is destroyed afterwards, and is told
    that there is none: all destructors are within the condition of C121_ranked_destructors_partial. *)
Definition chain_dtor (p : N) : list (hop N N) := if p =? 2 then [HFind 3] else [].
Theorem C121_clear_hides_elements_refuted :
  forall dbg, tame own chain_dtor (fun p => if p =? 2 then 1%nat else 0%nat) /\
    life_re (fun _ => 5) own 0 (cf dbg) chain_dtor 2 16 (puts [1; 2; 3] ++ [HClear]) =
      Ok [VAdded 1; VAdded 2; VAdded 3; VDestroyed 1; VDestroyed 2; VAbsent; VDestroyed 3].
Proof.
  intros dbg. split.
  - intros p o. unfold chain_dtor. destruct (N.eqb_spec p 2) as [->|]; [|intros []].
    intros [<-|[]] q Hq. unfold own in Hq. apply N.eqb_eq in Hq as <-. cbn. lia.
  - destruct dbg; vm_compute; reflexivity.
Qed.
(** In ~HashTable the same lookup compares the key with a payload that was destroyed. *)
Definition peek_dtor (p : N) : list (hop N N) := if p =? 2 then [HFind 1] else [].
Theorem C121_destructor_lookup_refuted :
  forall dbg, tame own peek_dtor (fun p => if p =? 2 then 1%nat else 0%nat) /\
    life_re (fun _ => 5) own 0 (cf dbg) peek_dtor 2 16 (puts [1; 2]) = Fault Uninit /\
    exists ev, life_re (fun _ => 5) own 0 (cf dbg) peek_dtor 2 16 (puts [1; 2] ++ [HClear]) = Ok ev.
Proof.
  intros dbg. split; [|split].
  - intros p o. unfold peek_dtor. destruct (N.eqb_spec p 2) as [->|]; [|intros []].
    intros [<-|[]] q Hq. unfold own in Hq. apply N.eqb_eq in Hq as <-. cbn. lia.
  - destruct dbg; vm_compute; reflexivity.
  - eexists. destruct dbg; vm_compute; reflexivity.
Qed.
(** An addition made by a destructor: destroys the running payload again when the table grows ... *)
Definition late_dtor (p : N) : list (hop N N) := if p =? 1 then [put 100] else [].
Theorem C121_nested_add_refuted :
  forall dbg,
    life_re (fun k => k) own 0 (cf dbg) late_dtor 2 16 (puts [1; 2; 3; 4; 5; 6; 7; 8; 9; 10; 11; 12; 13] ++ [HRemove 1; HClear]) =
      Fault DoubleFree /\
    (* ... and made inside clear() may leave an element in a table that reports to be empty. *)
    life_re (fun k => k) own 0 (cf dbg) late_dtor 2 16 (puts [1] ++ [HClear; HElements; HFind 100; HClear]) =
      Ok [VAdded 1; VDestroyed 1; VAdded 100; VCount 0; VFound 100; VDestroyed 100].
Proof. intros dbg. split; destruct dbg; vm_compute; reflexivity. Qed.

(** *** Non-vacuity: a tree of payloads, each removing its children 2p and 2p+1 when destroyed *)
Definition tree_dtor (p : N) : list (hop N N) := if p <? 8 then [HFind (2 * p); HRemove (2 * p); HRemove (2 * p + 1)] else [].
Definition tree_rank (p : N) : nat := N.to_nat (20 - p).
Example C121_tree_tame : tame own (fun p => if p =? 0 then [] else tree_dtor p) tree_rank.
Proof.
  intros p o. destruct (N.eqb_spec p 0); [intros []|]. unfold tree_dtor. destruct (N.ltb_spec p 8); [|intros []].
  intros [<-|[<-|[<-|[]]]] q Hq; unfold own, tree_rank in *; apply N.eqb_eq in Hq as <-; lia.
Qed.
Example C121_tree :
  life_re (fun k => k) own 0 (cf true) (fun p => if p =? 0 then [] else tree_dtor p) 20 16 (puts [1; 2; 3; 4; 5; 9; 17] ++ [HRemove 2; HElements; HFind 1; HClear]) =
  Ok [VAdded 1; VAdded 2; VAdded 3; VAdded 4; VAdded 5; VAdded 9; VAdded 17;
      VDestroyed 2; VFound 4; VDestroyed 4; VAbsent; VDestroyed 9; VDestroyed 5; VAbsent; VCount 3; VFound 1; 
      VDestroyed 1; VAbsent; VDestroyed 3; VAbsent; VDestroyed 17].
Proof. vm_compute. reflexivity. Qed.
(** Filled tables in which the keys of the refutations are found. *)
Example C121_filled : forall dtor, exists t, filled (fun k => k) own 0 (cf true) dtor 16 t /\
  step (fun k => k) own 0 (cf true) t (OFind 2) = Ok (t, RFound 2) /\ elements t = 3.
Proof.
  intros dtor. destruct (init (cf true) true (@ctor N) 16) as [[t0 [|]]| |] eqn:E; [|vm_compute in E; discriminate..].
  vm_compute in E. injection E as <-.
  eexists. split; [|split].
  - eexists _, (puts [1; 2; 3]), O, _. split; [vm_compute; reflexivity|]. split; [repeat constructor|]. vm_compute. reflexivity.
  - vm_compute. reflexivity.
  - reflexivity.
Qed.
Print Assumptions C121_ranked_destructors_partial.
Print Assumptions C121_own_lookup_refuted.
Print Assumptions C121_own_remove_refuted.
Print Assumptions C121_nested_clear_refuted.
Print Assumptions C121_clear_hides_elements_refuted.
Print Assumptions C121_destructor_lookup_refuted.
Print Assumptions C121_nested_add_refuted.
