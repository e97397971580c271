(** Property C113: when a hash table resizes, and how much work that is over a whole history. *)
From Verif Require Import Base BitsModel BitsSpec BitsProofs HashTableModel HashTableSpec HashTableProofs HashTableFacts.
Local Open Scope N_scope.

Section Cost.
Variable Key Payload : Type.
Variable hashf : Key -> N.
Variable matches : Key -> Payload -> bool.
Variable dflt : Payload.
Variable c : cfg.
Hypothesis Hpol : policy_ok matches hashf.
Hypothesis Hcfg : config_ok c.
Notation table := (table Payload).
Notation step := (step hashf matches dflt c).
Notation run := (run hashf matches dflt c).
Notation inv := (inv Key Payload hashf matches c).
Notation reachable := (reachable matches hashf dflt c).

Lemma filter_le {A} (f : A -> bool) l : (length (filter f l) <= length l)%nat.
Proof. induction l as [|x l IH]; cbn; [lia|]. destruct (f x); cbn; lia. Qed.
(** What happened to capacity, elements and removed marks. *)
Definition same (t t' : table) : Prop := cap t' = cap t /\ nelem t' = nelem t /\ ndel t' = ndel t.
Definition halved (t t' : table) : Prop :=
  cap t = 2 * cap t' /\ 4 * (nelem t + ndel t) < cap t /\ mincap t <= cap t' /\ nelem t' = nelem t /\ ndel t' = 0.
Definition doubled (t t' : table) : Prop :=
  cap t' = 2 * cap t /\ 3 * cap t < 4 * (nelem t + ndel t) /\ nelem t' = nelem t /\ ndel t' = 0.
Definition density (t t' : table) : Prop := same t t' \/ halved t t' \/ doubled t t'.

Ltac inv_bind := repeat match goal with
  | H : (do x <- ?e; _) = Ok _ |- _ => let E := fresh "E" in destruct e as [?x| |] eqn:E; cbn [bind] in H; [|discriminate H..]
  | H : (let '(_, _) := ?x in _) = Ok _ |- _ => destruct x
  | H : Ok _ = Ok _ |- _ => injection H as; subst
  | H : Fault _ = Ok _ |- _ => discriminate H
  | H : Diverge = Ok _ |- _ => discriminate H
  end.

Lemma changeCapacity_shape alloc (t : table) n t' ok : changeCapacity c alloc t n = Ok (t', ok) ->
  t' = t \/ (cap t' = n /\ nelem t' = nelem t /\ ndel t' = 0).
Proof.
  unfold changeCapacity. intros H. inv_bind.
  match goal with H : match ?o with _ => _ end = Ok _ |- _ => destruct o; inv_bind end; cbn; auto.
Qed.

Lemma kMax_small : kMaxCapacity c < 2 ^ 31.
Proof.
  unfold kMaxCapacity. change (2 ^ 31) with 2147483648. destruct (N.eq_dec (sizeof_entry c) 0) as [->|Hz]; [now vm_compute|].
  apply N.div_lt_upper_bound; [exact Hz|]. nia.
Qed.

(** The threshold arithmetic of a reachable table. *)
Lemma thresholds m t l : inv m t l -> exists q, cap t = 4 * q /\ 4 <= q /\ cap t / 2 = 2 * q /\ cap t / 4 = q /\
  uadd 32 (nelem t) (ndel t) = nelem t + ndel t /\ uadd 32 (cap t / 2) (cap t / 4) = 3 * q /\
  nelem t + ndel t <= 3 * q + 1 /\ 4 * q <= 2 ^ 31.
Proof.
  intros H. pose proof (inv_small _ _ _ _ _ _ _ _ H) as [Hs Hcs]. pose proof (i_load _ _ _ _ _ _ _ _ H) as HL.
  destruct (il_cap _ _ _ _ _ _ (i_l _ _ _ _ _ _ _ _ H)) as (j & Ej & Hj).
  assert (E4 : cap t = 4 * 2 ^ (j - 2)).
  { rewrite Ej. change 4 with (2 ^ 2). rewrite <- N.pow_add_r. f_equal. lia. }
  exists (2 ^ (j - 2)).
  assert (Q : 4 <= 2 ^ (j - 2)) by (change 4 with (2 ^ 2) at 1; apply N.pow_le_mono_r; lia).
  assert (D4 : cap t / 4 = 2 ^ (j - 2)) by (rewrite E4, N.mul_comm, N.div_mul by lia; reflexivity).
  assert (D2 : cap t / 2 = 2 * 2 ^ (j - 2)).
  { rewrite E4. replace (4 * 2 ^ (j - 2)) with (2 * 2 ^ (j - 2) * 2) by lia. now rewrite N.div_mul by lia. }
  rewrite D4, D2 in *. change (2 ^ 31) with 2147483648 in *.
  rewrite !uadd_small by (change (2 ^ 32) with 4294967296; lia).
  repeat split; auto; lia.
Qed.

Lemma checkDensity_shape m alloc t l t' ok : inv m t l -> checkDensity c alloc t = Ok (t', ok) -> density t t'.
Proof.
  intros H. destruct (thresholds m t l H) as (q & E4 & Hq & D2 & D4 & Eu & Eo & HL & Hb). change (2 ^ 31) with 2147483648 in Hb.
  unfold checkDensity, underloaded, overloaded. rewrite Eu, Eo, D4. unfold shrink, grow, kMinCapacity.
  rewrite N.shiftr_div_pow2. change (2 ^ 1) with 2. rewrite D2.
  destruct (N.ltb_spec 16 (cap t)), (N.ltb_spec (nelem t + ndel t) q); cbn [andb].
  1: { destruct (N.ltb_spec (2 * q) (mincap t)); intros E; [injection E as <- <-; left; repeat split|].
       apply changeCapacity_shape in E as [->|(E1 & E2 & E3)]; [left; repeat split|].
       right; left. unfold halved. rewrite E1. split; [lia|]. split; [lia|]. split; [lia|]. auto. }
  all: destruct (N.ltb_spec (3 * q) (nelem t + ndel t)); [|intros E; injection E as <- <-; left; repeat split].
  all: pose proof kMax_small as HM; change (2 ^ 31) with 2147483648 in HM.
  all: destruct (N.leb_spec (kMaxCapacity c) (cap t));
    [unfold reportAllocationOverflow; destruct (aborts c); cbn [bind]; intros E; [discriminate|injection E as <- <-; left; repeat split]|].
  all: intros E; apply changeCapacity_shape in E as [->|(E1 & E2 & E3)]; [left; repeat split|].
  all: right; right; unfold doubled; rewrite E1; unfold ushl; rewrite N.shiftl_mul_pow2; change (2 ^ 1) with 2;
    rewrite N.mod_small by (change (2 ^ 32) with 4294967296; lia); repeat split; auto; lia.
Qed.

(** One more element, after a possible resize or in place of a removed mark. *)
Definition grown (t t' : table) : Prop :=
  exists t0, (density t t0 \/ (cap t0 = cap t /\ nelem t0 = nelem t /\ ndel t0 + 1 = ndel t)) /\
    cap t' = cap t0 /\ nelem t' = uadd 32 (nelem t0) 1 /\ ndel t' = ndel t0.

Lemma internalAdd_shape m alloc t l i t' i' ok : inv m t l -> internalAdd c alloc t i = Ok (t', i', ok) ->
  if ok then grown t t' else density t t'.
Proof.
  intros H. unfold internalAdd. intros E. inv_bind.
  destruct (removed e) eqn:R; [|destruct (nelem t =? kMaxCapacity c)]; inv_bind.
  - exists (Table (cap t) (nelem t) (usub 32 (ndel t) 1) (tbl t) (mincap t)). cbn. split; [right|]; auto.
    split; [reflexivity|]. split; [reflexivity|].
    assert (Hin : In e (filter removed l)).
    { rewrite (i_tbl _ _ _ _ _ _ _ _ H) in E2. cbn in E2. injection E2 as ->. apply filter_In. split; [|exact R].
      unfold slot_get in E3. destruct (nth_error l0 (fst i')) eqn:NE; [|discriminate]. injection E3 as <-. exact (nth_error_In _ _ NE). }
    pose proof (i_ndel _ _ _ _ _ _ _ _ H) as ND. unfold nremoved in ND.
    pose proof (inv_small _ _ _ _ _ _ _ _ H) as [SM _]. change (2 ^ 31) with 2147483648 in SM.
    assert (1 <= ndel t) by (destruct (filter removed l); [destruct Hin|cbn [length] in ND; lia]).
    rewrite usub1; [lia|lia|]. change (2 ^ 32) with 4294967296. lia.
  - left; repeat split.
  - match goal with D : checkDensity c alloc t = Ok (?t1, ?b) |- _ => pose proof (checkDensity_shape _ _ _ _ _ _ H D) as DS; destruct b; cbn [negb] in * end;
      inv_bind; [|exact DS].
    match goal with D : (if negb (?a =? ?b) then _ else _) = _ |- _ => destruct (negb (a =? b)) end; inv_bind; cbn; eexists; (split; [left; exact DS|]); cbn; auto.
Qed.
Lemma add_shape m alloc t l i p t' i' ok : inv m t l -> add c alloc t i p = Ok (t', i', ok) ->
  if ok then grown t t' else density t t'.
Proof.
  intros H. unfold add. intros E. inv_bind.
  match goal with D : internalAdd c alloc t i = Ok (?t1, ?j, ?b) |- _ => pose proof (internalAdd_shape _ _ _ _ _ _ _ _ H D) as DS; destruct b end; inv_bind; cbn; exact DS.
Qed.
Lemma write_shape (t : table) s p t' : write c t s p = Ok t' -> same t t'.
Proof. unfold write. intros E. inv_bind. repeat split. Qed.

(** No resize, and no more elements or marks than before. *)
Definition kept (t t' : table) : Prop := cap t' = cap t /\ nelem t' <= nelem t /\ nelem t' + ndel t' <= nelem t + ndel t.

Lemma step_shape m t l o t' r : inv m t l -> op_ok matches o -> step t o = Ok (t', r) ->
  kept t t' \/ ((is_add o = true \/ exists a, o = OCheckDensity a) /\ density t t') \/ (is_add o = true /\ grown t t').
Proof.
  intros H Ho E. assert (Same : forall t1, same t t1 -> kept t t1) by (intros t1 (A & B & D); unfold kept; rewrite A, B, D; repeat split; lia).
  assert (Refl : same t t) by repeat split.
  destruct o as [k p alloc|k p alloc|k p alloc|k p|k|k|k| |alloc| |pred| |]; cbn [HashTableModel.step] in E; cbn [is_add op_ok] in *.
  - inv_bind. match goal with D : found t _ = Ok ?b |- _ => destruct b end; inv_bind; [left; auto|].
    match goal with D : add _ _ _ _ _ = Ok (_, _, ?b) |- _ => pose proof (add_shape _ _ _ _ _ _ _ _ _ H D) as S; destruct b end; inv_bind; auto 6.
  - inv_bind. match goal with D : found t _ = Ok ?b |- _ => destruct b end; inv_bind; [left; auto|].
    match goal with D : add _ _ _ _ _ = Ok (_, _, ?b) |- _ => pose proof (add_shape _ _ _ _ _ _ _ _ _ H D) as S; destruct b end; inv_bind; auto 6.
    right; right. split; [reflexivity|]. match goal with D : write _ _ _ _ = Ok _ |- _ => apply write_shape in D as (W1 & W2 & W3) end.
    destruct S as (t9 & D & A1 & A2 & A3). exists t9. split; [exact D|]. rewrite W1, W2, W3. auto.
  - inv_bind. match goal with D : found t _ = Ok ?b |- _ => destruct b end; inv_bind.
    { left. apply Same. match goal with D : write _ _ _ _ = Ok _ |- _ => exact (write_shape _ _ _ _ D) end. }
    match goal with D : add _ _ _ _ _ = Ok (_, _, ?b) |- _ => pose proof (add_shape _ _ _ _ _ _ _ _ _ H D) as S; destruct b end; inv_bind; auto 6.
  - inv_bind. match goal with D : found t _ = Ok ?b |- _ => destruct b end; inv_bind; [|left; auto].
    left. apply Same. match goal with D : write _ _ _ _ = Ok _ |- _ => exact (write_shape _ _ _ _ D) end.
  - inv_bind. match goal with D : found t _ = Ok ?b |- _ => destruct b end; inv_bind; left; auto.
  - inv_bind. match goal with D : found t _ = Ok ?b |- _ => destruct b end; inv_bind; left; auto.
  - left. unfold removeIfExists in E. destruct (find_ok _ _ _ _ _ _ t l k H) as (s & Es & (e & He & Hpost)).
    rewrite Es in E. cbn [bind] in E. rewrite (found_ok _ _ _ _ _ _ _ _ _ _ H He) in E. cbn [bind] in E.
    destruct Hpost as [(L & p0 & Hp0 & _)|(L & _)]; rewrite L in E; [|inv_bind; auto].
    unfold remove in E. rewrite (found_ok _ _ _ _ _ _ _ _ _ _ H He) in E. cbn [bind] in E. rewrite assert_true in E by exact L. cbn [bind] in E.
    destruct (removeEntry_ok _ _ _ _ _ _ t l s e p0 H He L Hp0) as (t1 & Er & H' & Ec & Et & HP).
    rewrite Er in E. inv_bind. split; [exact Ec|]. split; [|lia].
    rewrite (i_nelem _ _ _ _ _ _ _ _ H), (i_nelem _ _ _ _ _ _ _ _ H'), (Permutation_length HP). cbn [length]. lia.
  - left. destruct (clear_ok _ _ _ _ _ _ t l H) as (t1 & l' & E' & H' & Hc & Hz & Ec). rewrite E' in E. inv_bind. split; [exact Ec|]. lia.
  - inv_bind. right; left. split; [eauto|].
    match goal with D : checkDensity _ _ _ = _ |- _ => exact (checkDensity_shape _ _ _ _ _ _ H D) end.
  - left. cbn in E. inv_bind. apply Same. repeat split.
  - left. destruct (iterate_ok _ _ _ _ dflt _ _ pred t l H) as (t1 & l' & E' & H' & Ec & Et & _ & Hc).
    rewrite E' in E. inv_bind. split; [exact Ec|]. split; [|lia].
    rewrite (i_nelem _ _ _ _ _ _ _ _ H), (i_nelem _ _ _ _ _ _ _ _ H'), Hc. pose proof (filter_le (fun q => negb (pred q)) (contents_l Payload l)). lia.
  - left. destruct (iterate_ok _ _ _ _ dflt _ _ (fun _ => false) t l H) as (t1 & l' & E' & H' & Ec & Et & Hs & Hc).
    rewrite E' in E. inv_bind. rewrite Hs by reflexivity. auto.
  - inv_bind. left. auto.
Qed.

(** ** The potential *)
Definition phi (t : table) : N := 24 * (2 * (nelem t + ndel t) - cap t) + 6 * (cap t - 2 * nelem t) + 12 * nelem t.
Lemma density_phi m t l t' : inv m t l -> density t t' -> 2 * resize_cost (cap t) (cap t') + phi t' <= phi t.
Proof.
  intros H. destruct (thresholds m t l H) as (q & E4 & Hq & _ & _ & _ & _ & HL & _).
  unfold resize_cost, phi. intros [(A & B & D)|[(A & B & _ & D & F)|(A & B & D & F)]].
  - rewrite A, B, D, N.eqb_refl. lia.
  - rewrite D, F. destruct (N.eqb_spec (cap t) (cap t')); lia.
  - rewrite D, F. destruct (N.eqb_spec (cap t) (cap t')); lia.
Qed.
Lemma step_phi m t l o t' r : inv m t l -> op_ok matches o -> step t o = Ok (t', r) ->
  2 * resize_cost (cap t) (cap t') + phi t' <= phi t + (if is_add o then 60 else 0).
Proof.
  intros H Ho E. pose proof (step_shape m t l o t' r H Ho E) as S.
  destruct (thresholds m t l H) as (q & E4 & Hq & _ & _ & _ & _ & HL & HB). change (2 ^ 31) with 2147483648 in HB.
  destruct S as [(A & B & D)|[(_ & S)|(-> & t0 & S & A & B & D)]].
  - unfold resize_cost, phi. rewrite A, N.eqb_refl. destruct (is_add o); lia.
  - pose proof (density_phi m t l t' H S). destruct (is_add o); lia.
  - assert (NE : nelem t0 = nelem t) by (destruct S as [[S|[S|S]]|S]; unfold same, halved, doubled in S; tauto).
    assert (UA : nelem t' = nelem t0 + 1) by (rewrite B; apply uadd_small; change (2 ^ 32) with 4294967296; lia).
    destruct S as [S|(S1 & S2 & S3)].
    + pose proof (density_phi m t l t0 H S) as P. rewrite A. enough (phi t' <= phi t0 + 60) by lia. unfold phi. rewrite UA, D, A. lia.
    + unfold resize_cost, phi. rewrite UA, D, A, S1, S2, N.eqb_refl. lia.
Qed.
Lemma run_phi m ops : forall t l, inv m t l -> Forall (op_ok matches) ops ->
  2 * resize_work hashf matches dflt c t ops <= phi t + 60 * N.of_nat (length (filter is_add ops)).
Proof.
  induction ops as [|o ops IH]; intros t l H Ho; cbn [resize_work filter]; [cbn; lia|].
  inversion Ho as [|? ? H1 H2]; subst. destruct (step t o) as [[t' r]| |] eqn:E; [|lia..].
  pose proof (step_phi m t l o t' r H H1 E) as P.
  destruct (step_ok _ _ _ _ dflt _ Hpol _ t l o H Hcfg H1) as [(_ & _ & E')|[(_ & _ & E')|(t1 & r1 & l1 & E' & HI & _)]]; rewrite E in E'; try discriminate.
  injection E' as <- <-. specialize (IH t' l1 HI H2). destruct (is_add o); cbn [length]; lia.
Qed.
End Cost.

(** * C113 *)
(** Whatever the hash function, the keys and the order of operations - clearing, removing, erasing while iterating, failed
    allocations and aborts included - the slots read and cleared by all resizes together number at most 3 times the initial
    capacity plus 30 per add: adding is constant work on average, and nothing else ever pays for a resize. *)
Theorem C113_resize_work_is_linear :
  forall (Key Payload : Type) (hashf : Key -> N) (matches : Key -> Payload -> bool) (dflt : Payload) (c : cfg),
  policy_ok matches hashf -> config_ok c ->
  forall capacity t0 ops, capacity_ok c capacity -> init c true ctor capacity = Ok (t0, true) -> Forall (op_ok matches) ops ->
  resize_work hashf matches dflt c t0 ops <= 3 * N.max 16 capacity + 30 * N.of_nat (length (filter is_add ops)).
Proof.
  intros Key Payload hashf matches dflt c Hpol Hcfg capacity t0 ops Hc E Ho.
  destruct (init_ok Key Payload hashf matches c (N.max 16 capacity) capacity eq_refl Hcfg Hc) as (t1 & E1 & Hi & Hcap & _ & En & Ed).
  rewrite E in E1. injection E1 as <-.
  pose proof (run_phi Key Payload hashf matches dflt c Hpol Hcfg _ ops t0 _ Hi Ho) as P. unfold phi in P. rewrite Hcap, En, Ed in P.
  lia.
Qed.
Print Assumptions C113_resize_work_is_linear.

(** When: a table changes its capacity only in an add or in checkDensity(); it doubles when more than three quarters of the slots
    are in use and halves when fewer than a quarter are, never below the initial capacity. *)
Theorem C113_resize_policy :
  forall (Key Payload : Type) (hashf : Key -> N) (matches : Key -> Payload -> bool) (dflt : Payload) (c : cfg),
  policy_ok matches hashf -> config_ok c ->
  forall capacity t o t' r, reachable matches hashf dflt c capacity t -> op_ok matches o -> step hashf matches dflt c t o = Ok (t', r) ->
  cap t' <> cap t ->
  (is_add o = true \/ exists alloc, o = OCheckDensity alloc) /\
  ((cap t' = 2 * cap t /\ 3 * cap t < 4 * used_slots t) \/
   (cap t = 2 * cap t' /\ 4 * used_slots t < cap t /\ N.max 16 capacity <= cap t')).
Proof.
  intros Key Payload hashf matches dflt c Hpol Hcfg capacity t o t' r Hr Ho E Hne.
  destruct (reachable_inv Key Payload hashf matches dflt c Hpol (N.max 16 capacity) capacity t eq_refl Hcfg Hr) as (l & H).
  assert (U : used_slots t = nelem t + ndel t).
  { unfold used_slots, entries. rewrite (i_tbl _ _ _ _ _ _ _ _ H).
    pose proof (nonfree_of _ _ _ _ _ _ (i_l _ _ _ _ _ _ _ _ H)) as NF. unfold nonfree in NF. rewrite NF.
    rewrite (i_nelem _ _ _ _ _ _ _ _ H), (i_ndel _ _ _ _ _ _ _ _ H). lia. }
  rewrite U. assert (D : forall t1, density Payload t t1 -> cap t1 <> cap t ->
    (cap t1 = 2 * cap t /\ 3 * cap t < 4 * (nelem t + ndel t)) \/ (cap t = 2 * cap t1 /\ 4 * (nelem t + ndel t) < cap t /\ N.max 16 capacity <= cap t1)).
  { intros t1 [(A & _)|[(A & B & M & _)|(A & B & _)]] Hn; [contradiction| |left; auto].
    right. rewrite (i_m0 _ _ _ _ _ _ _ _ H) in M. auto. }
  destruct (step_shape Key Payload hashf matches dflt c _ t l o t' r H Ho E) as [(A & _)|[(O & S)|(O & t0 & [S|(S1 & _)] & A & _)]].
  - contradiction.
  - split; [exact O|]. now apply D.
  - split; [auto|]. rewrite A in *. now apply D.
  - congruence.
Qed.
Print Assumptions C113_resize_policy.

(** And it does so whenever it is asked and can: checkDensity() with memory to be had. *)
Theorem C113_resize_happens :
  forall (Key Payload : Type) (hashf : Key -> N) (matches : Key -> Payload -> bool) (dflt : Payload) (c : cfg),
  policy_ok matches hashf -> config_ok c ->
  forall capacity t, reachable matches hashf dflt c capacity t ->
  (3 * cap t < 4 * used_slots t -> 2 * cap t <= kMaxCapacity c ->
     exists t', step hashf matches dflt c t (OCheckDensity true) = Ok (t', RUnit) /\ cap t' = 2 * cap t) /\
  (4 * used_slots t < cap t -> 2 * N.max 16 capacity <= cap t ->
     exists t', step hashf matches dflt c t (OCheckDensity true) = Ok (t', RUnit) /\ 2 * cap t' = cap t).
Proof.
  intros Key Payload hashf matches dflt c Hpol Hcfg capacity t Hr.
  destruct (reachable_inv Key Payload hashf matches dflt c Hpol (N.max 16 capacity) capacity t eq_refl Hcfg Hr) as (l & H).
  assert (U : used_slots t = nelem t + ndel t).
  { unfold used_slots, entries. rewrite (i_tbl _ _ _ _ _ _ _ _ H).
    pose proof (nonfree_of _ _ _ _ _ _ (i_l _ _ _ _ _ _ _ _ H)) as NF. unfold nonfree in NF. rewrite NF.
    rewrite (i_nelem _ _ _ _ _ _ _ _ H), (i_ndel _ _ _ _ _ _ _ _ H). lia. }
  rewrite U. destruct (thresholds Key Payload hashf matches c _ t l H) as (q & E4 & Hq & D2 & D4 & Eu & Eo & HL & Hb).
  change (2 ^ 31) with 2147483648 in Hb.
  destruct (il_cap _ _ _ _ _ _ (i_l _ _ _ _ _ _ _ _ H)) as (j & Ej & Hj).
  pose proof (i_m0 _ _ _ _ _ _ _ _ H) as M0. pose proof (i_min _ _ _ _ _ _ _ _ H) as MC.
  pose proof (kMax_small c) as HM.
  cbn [step]. unfold checkDensity, underloaded, overloaded. rewrite Eu, Eo, D4. unfold shrink, grow, kMinCapacity.
  rewrite N.shiftr_div_pow2. change (2 ^ 1) with 2. rewrite D2. split; intros H1 H2.
  - rewrite (proj2 (N.ltb_ge (nelem t + ndel t) q)), Bool.andb_false_r by lia.
    rewrite (proj2 (N.ltb_lt (3 * q) (nelem t + ndel t))), (proj2 (N.leb_gt _ _)) by lia.
    assert (Esh : ushl 32 (cap t) 1 = 2 * cap t).
    { unfold ushl. rewrite N.shiftl_mul_pow2. change (2 ^ 1) with 2. rewrite N.mod_small; [lia|].
      change (2 ^ 32) with 4294967296. change (2 ^ 31) with 2147483648 in HM. lia. }
    rewrite Esh. assert (Hc' : cap_ok (2 * cap t)).
    { exists (j + 1). split; [rewrite Ej, N.add_1_r, N.pow_succ_r'; reflexivity|]. assert (j <> 31); [|lia]. intros ->. rewrite Ej in H2. lia. }
    destruct (changeCapacity_ok Key Payload hashf matches c _ true t l (2 * cap t) H Hc') as
        [(_ & X & _)|[(X & _)|[(X & _)|(_ & t' & l' & E & _ & E1 & _)]]]; try discriminate X; try lia.
    rewrite E. cbn [bind]. eauto.
  - rewrite (proj2 (N.ltb_lt 16 (cap t))), (proj2 (N.ltb_lt (nelem t + ndel t) q)), (proj2 (N.ltb_ge (2 * q) (mincap t))) by lia. cbn [andb].
    assert (Hc' : cap_ok (2 * q)).
    { exists (j - 1). assert (E2 : cap t = 2 * 2 ^ (j - 1)) by (rewrite Ej, <- N.pow_succ_r'; f_equal; lia). split; [lia|].
      assert (2 ^ 4 <= 2 ^ (j - 1)) by (change (2 ^ 4) with 16; lia). apply N.pow_le_mono_r_iff in H0; lia. }
    destruct (changeCapacity_ok Key Payload hashf matches c _ true t l (2 * q) H Hc') as
        [(DB & X & _)|[(X & _)|[(X & _)|(_ & t' & l' & E & _ & E1 & _)]]]; try discriminate X; try lia.
    { pose proof (i_dbg _ _ _ _ _ _ _ _ H DB). lia. }
    rewrite E. cbn [bind]. exists t'. split; [reflexivity|]. lia.
Qed.
Print Assumptions C113_resize_happens.

(** The hypotheses are met: 14 adds grow a table of 16; removing 12 and asking shrinks it. *)
Definition cost_cfg : cfg := Cfg 16 true false.
Definition cost_ops : list (op N N) :=
  map (fun k => OAdd (N.of_nat k) (N.of_nat k) true) (seq 0 14) ++ map (fun k => ORemove (N.of_nat k)) (seq 0 12) ++
  [OClear; OAdd 3 3 true].
Example C113_nonvacuous :
  config_ok cost_cfg /\ capacity_ok cost_cfg 16 /\ policy_ok N.eqb (fun k => k) /\ Forall (op_ok N.eqb) cost_ops /\
  match init cost_cfg true ctor 16 with
  | Ok (t0, true) => resize_work (fun k => k) N.eqb 0 cost_cfg t0 cost_ops = 96
  | _ => False
  end.
Proof.
  split; [discriminate|]. split. { right. split; [now exists 4|]. split; discriminate. }
  split. { intros k k' p H1 H2. apply N.eqb_eq in H1, H2. subst. auto. }
  split; [repeat constructor|]. vm_compute. reflexivity.
Qed.
