(** Corollaries of the invariant, in the form used by the property files. *)
From Verif Require Import Base BitsModel BitsSpec BitsProofs HashTableModel HashTableSpec HashTableProofs.
Local Open Scope N_scope.

Section Facts.
Variable Key Payload : Type.
Variable hashf : Key -> N.
Variable matches : Key -> Payload -> bool.
Variable dflt : Payload.
Variable c : cfg.
Hypothesis Hpol : policy_ok matches hashf.
Hypothesis Hcfg : config_ok c.
Notation step := (step hashf matches dflt c).
Notation run := (run hashf matches dflt c).
Notation life := (life hashf matches dflt c).
Notation reachable := (reachable matches hashf dflt c).
Notation contents_l := (contents_l Payload).

Lemma reach capacity t : reachable capacity t ->
  exists l, inv Key Payload hashf matches c (N.max 16 capacity) t l.
Proof. intros H. eapply reachable_inv with (m0 := N.max 16 capacity); eauto. Qed.

Lemma life_refines capacity ops :
  capacity_ok c capacity -> Forall (op_ok matches) ops ->
  match life capacity ops with
  | Ok (t, outs) =>
      exists S, spec_run matches (fun alloc => aborts c = false /\ (alloc = false \/ near_limit c ops)) [] ops outs S
  | Fault Abort =>
      aborts c = true /\ (Exists (fun o => alloc_refused o = true) ops \/ near_limit c ops)
  | Fault AssertFail => debug c = true /\ near_limit c ops
  | _ => False
  end.
Proof.
  intros Hc Hops.
  destruct (life_ok Key Payload hashf matches dflt c Hpol _ capacity ops eq_refl Hcfg Hc Hops) as
    [(?&?&->)|[(?&?&->)|(t & outs & S & -> & HS)]]; auto. exists S; exact HS.
Qed.


Lemma spec_run_nofail (mf : bool -> Prop) : ~ mf true ->
  forall S ops outs S', spec_run matches mf S ops outs S' ->
  Forall (fun o => alloc_refused o = false) ops -> spec_run matches (fun _ => False) S ops outs S'.
Proof.
  intros Hmf S ops outs S' H. induction H as [S|S o r S1 ops rs S2 Hs Hr IH]; intros Hall; [constructor|].
  inversion Hall as [|? ? Ho Hall']; subst. econstructor; [|now apply IH].
  assert (Hx : forall a, negb a = false -> mf a -> False).
  { intros [] Ha Hm; [exact (Hmf Hm)|discriminate]. }
  destruct o; cbn in *; unfold spec_add in *; intuition eauto.
Qed.

Lemma life_refines_plain capacity ops :
  capacity_ok c capacity -> Forall (op_ok matches) ops ->
  Forall (fun o => alloc_refused o = false) ops -> ~ near_limit c ops ->
  exists t outs S, life capacity ops = Ok (t, outs) /\ spec_run matches (fun _ => False) [] ops outs S.
Proof.
  intros Hc Hops Hall Hnl.
  assert (Hne : ~ Exists (fun o => alloc_refused o = true) ops).
  { intros He. apply Exists_exists in He as (o & Hin & Ho). rewrite Forall_forall in Hall.
    rewrite (Hall o Hin) in Ho. discriminate. }
  destruct (life_ok Key Payload hashf matches dflt c Hpol _ capacity ops eq_refl Hcfg Hc Hops) as
    [(?&?&_)|[([?|?]&?&_)|(t & outs & S & E & HS)]]; try contradiction.
  exists t, outs, S. split; [exact E|]. eapply spec_run_nofail; [|exact HS|exact Hall].
  intros [_ [?|?]]; [discriminate|contradiction].
Qed.

(** Lookups in a reachable state, with the iteration order as the view of the contents. *)
Lemma lookup_result t l k m : inv Key Payload hashf matches c m t l ->
  exists r, step t (OFind k) = Ok (t, r) /\ step t (OFindForAdd k) = Ok (t, r) /\
    ((exists p, In p (contents_l l) /\ matches k p = true /\ r = RFound p) \/
     ((forall p, In p (contents_l l) -> matches k p = false) /\ r = RAbsent)).
Proof.
  intros H.
  destruct (find_ok _ _ _ _ _ _ t l k H) as (s & Es & (e & He & Hpost)).
  destruct (findForAdd_ok _ _ _ _ _ _ t l k H) as (s' & Es' & (e' & He' & Hpost') & _).
  cbn [HashTableModel.step]. rewrite Es, Es'. cbn [bind fst].
  rewrite (found_ok _ _ _ _ _ _ _ _ _ _ H He), (found_ok _ _ _ _ _ _ _ _ _ _ H He'). cbn [bind].
  destruct Hpost as [(L & p & Hp & Hm & Hin)|(L & Hnone)];
  destruct Hpost' as [(L' & p' & Hp' & Hm' & Hin')|(L' & Hnone')]; rewrite L, L'.
  - rewrite (read_ok _ _ _ _ _ _ _ _ _ _ _ H He L Hp), (read_ok _ _ _ _ _ _ _ _ _ _ _ H He' L' Hp').
    cbn [bind]. assert (p' = p) as ->.
    { pose proof (i_uniq _ _ _ _ _ _ _ _ H k) as Hu.
      assert (H1 : In p (List.filter (matches k) (contents_l l))) by (apply filter_In; auto).
      assert (H2 : In p' (List.filter (matches k) (contents_l l))) by (apply filter_In; auto).
      destruct (List.filter (matches k) (contents_l l)) as [|a [|b q]]; cbn in *; try lia; try contradiction.
      destruct H1 as [<-|[]]. destruct H2 as [<-|[]]. reflexivity. }
    exists (RFound p). repeat split; auto. left. eauto.
  - rewrite (Hnone' _ Hin) in Hm. discriminate.
  - rewrite (Hnone _ Hin') in Hm'. discriminate.
  - exists RAbsent. repeat split; auto.
Qed.

Lemma view t l m : inv Key Payload hashf matches c m t l ->
  iterate c (fun _ => false) t = Ok (t, contents_l l).
Proof.
  intros H. destruct (iterate_ok _ _ hashf matches dflt c m (fun _ => false) t l H) as (t' & l' & E & _ & _ & _ & Hs & _).
  rewrite E. rewrite Hs; auto.
Qed.

Lemma state_view capacity t : reachable capacity t ->
  exists l, iterate c (fun _ => false) t = Ok (t, l) /\ elements t = N.of_nat (length l) /\
    (forall k, (length (List.filter (matches k) l) <= 1)%nat) /\
    forall k, exists r, step t (OFind k) = Ok (t, r) /\ step t (OFindForAdd k) = Ok (t, r) /\
      ((exists p, In p l /\ matches k p = true /\ r = RFound p) \/
       ((forall p, In p l -> matches k p = false) /\ r = RAbsent)).
Proof.
  intros Hr. destruct (reach _ _ Hr) as (l & H). exists (contents_l l).
  split; [eapply view; eassumption|]. split; [apply H|]. split; [apply H|].
  intros k. eapply lookup_result; eassumption.
Qed.

Lemma lookups_terminate capacity t k : reachable capacity t ->
  (exists s, find hashf matches c t k = Ok s) /\ (exists i, findForAdd hashf matches c t k = Ok i) /\
  forall h, h < 2 ^ 32 -> exists s, insertUnique c (entries t) (cap t) h = Ok s.
Proof.
  intros Hr. destruct (reach _ _ Hr) as (l & H).
  destruct (find_ok _ _ _ _ _ _ t l k H) as (s & Es & _).
  destruct (findForAdd_ok _ _ _ _ _ _ t l k H) as (s' & Es' & _).
  split; [eauto|]. split; [eauto|]. intros h Hh. unfold entries. rewrite (i_tbl _ _ _ _ _ _ _ _ H).
  destruct (insertUnique_ok _ _ hashf matches c l (cap t) h (i_l _ _ _ _ _ _ _ _ H) Hh) as (s0 & E & _);
    [eapply inv_nonfree; eassumption|eauto].
Qed.

Lemma erase_if capacity t pred : reachable capacity t ->
  exists l t', iterate c (fun _ => false) t = Ok (t, l) /\
    iterate c pred t = Ok (t', l) /\
    iterate c (fun _ => false) t' = Ok (t', List.filter (fun p => negb (pred p)) l) /\
    elements t' = N.of_nat (length (List.filter (fun p => negb (pred p)) l)).
Proof.
  intros Hr. destruct (reach _ _ Hr) as (l & H).
  destruct (iterate_ok _ _ hashf matches dflt c _ pred t l H) as (t' & l' & E & H' & _ & _ & _ & Hc).
  exists (contents_l l), t'. split; [eapply view; eassumption|]. split; [exact E|].
  rewrite <- Hc. split; [eapply view; eassumption|apply H'].
Qed.

Lemma failed_add_nothing capacity t o t' :
  reachable capacity t -> op_ok matches o ->
  step t o = Ok (t', RFailed) ->
  t' = t /\ aborts c = false /\
  (alloc_refused o = true \/ (overloaded t = true /\ kMaxCapacity c < 2 * cap t) \/ nelem t = kMaxCapacity c).
Proof.
  intros Hr Ho E. destruct (reach _ _ Hr) as (l & H).
  destruct (step_ok _ _ hashf matches dflt c Hpol _ t l o H Hcfg Ho) as
    [(?&?&E')|[(?&?&E')|(t1 & r & l1 & E' & H1 & Hs & _ & Hsame)]]; rewrite E in E'; try discriminate.
  injection E' as <- <-. split; [now apply Hsame|].
  destruct o; cbn in Hs |- *;
    unfold spec_add, spec_found, spec_absent, may, limit in Hs; intuition; try discriminate;
    try (match goal with H : exists q, _ |- _ => destruct H as (? & ? & ? & ?); discriminate end);
    try (match goal with H : exists q, _ |- _ => destruct H as (? & ? & ?); discriminate end);
    subst; auto.
Qed.

Lemma move_transfers capacity t : reachable capacity t ->
  let '(t2, old) := move_ctor t in
  t2 = t /\ elements old = 0 /\ iterate c (fun _ => false) old = Ok (old, []) /\ destroy old = Ok tt /\
  destroy t2 = Ok tt /\ clear old = Ok old.
Proof.
  intros Hr. destruct (reach _ _ Hr) as (l & H). cbn.
  destruct t; cbn. repeat split.
  apply (destroy_ok _ _ _ _ _ _ _ _ H).
Qed.

Lemma capacity_discipline capacity t : reachable capacity t ->
  (exists k, cap t = 2 ^ k) /\ N.max 16 capacity <= cap t /\
  length (entries t) = N.to_nat (cap t) /\
  (exists e, In e (entries t) /\ isFree e = true) /\
  estimateMemoryUse c t = sizeof_entry c * N.of_nat (length (entries t)) /\
  elements t < cap t.
Proof.
  intros Hr. destruct (reach _ _ Hr) as (l & H).
  pose proof (i_l _ _ _ _ _ _ _ _ H) as HI.
  destruct (il_cap _ _ _ _ _ _ HI) as (j & Ej & Hj).
  pose proof (il_len _ _ _ _ _ _ HI) as Hl.
  unfold entries. rewrite (i_tbl _ _ _ _ _ _ _ _ H).
  pose proof (inv_nonfree _ _ _ _ _ _ _ _ H) as Hn.
  pose proof (filter_lt_exists _ _ Hn) as (i & e & Hi & He).
  split; [eauto|]. split.
  { rewrite <- (i_m0 _ _ _ _ _ _ _ _ H). apply H. }
  split; [exact Hl|]. split.
  { exists e. split; [eapply nth_error_In; eassumption|now destruct (isFree e)]. }
  split.
  { unfold estimateMemoryUse. f_equal. lia. }
  pose proof (load_lt _ (il_cap _ _ _ _ _ _ HI)). pose proof (i_load _ _ _ _ _ _ _ _ H).
  unfold elements. lia.
Qed.

Lemma reachable_step capacity t o t' r :
  reachable capacity t -> op_ok matches o -> step t o = Ok (t', r) -> reachable capacity t'.
Proof.
  intros (Hc & t0 & ops & outs & Ei & Hops & Er) Ho E. split; [exact Hc|].
  exists t0, (ops ++ [o]), (outs ++ [r]). split; [exact Ei|]. split.
  - apply Forall_app. auto.
  - clear Ei. revert t0 outs Er. induction ops as [|x ops IH]; intros t0 outs Er; cbn in Er |- *.
    + injection Er as -> <-. cbn. now rewrite E.
    + destruct (step t0 x) as [[t1 r1]| |]; cbn in Er |- *; try discriminate.
      destruct (run t1 ops) as [[t2 rs]| |] eqn:E2; cbn in Er; try discriminate.
      injection Er as -> <-. inversion Hops; subst.
      rewrite (IH ltac:(assumption) t1 rs E2). reflexivity.
Qed.

Lemma insert_valid capacity t k p alloc t' q :
  reachable capacity t -> matches k p = true ->
  step t (OAdd k p alloc) = Ok (t', RAdded q) \/ step t (OAddInPlace k p alloc) = Ok (t', RAdded q) \/
  step t (OSet k p alloc) = Ok (t', RAdded q) ->
  q = p /\ step t' (OFind k) = Ok (t', RFound p).
Proof.
  intros Hr Hm Hs.
  assert (Hx : exists o, op_ok matches o /\ step t o = Ok (t', RAdded q) /\
    forall mf S S', spec_step matches mf S o (RAdded q) S' -> q = p /\ In p S').
  { assert (Ha : forall mf S S', spec_add _ _ matches mf S k p alloc (RAdded q) S' -> q = p /\ In p S').
    { intros mf S S' [(E & _ & HP)|(E & _)]; [|discriminate]. injection E as ->. split; [reflexivity|].
      eapply Permutation_in; [symmetry; exact HP|]. now left. }
    destruct Hs as [Hs|[Hs|Hs]]; eexists; (split; [|split; [exact Hs|]]); cbn; auto;
      intros mf S S' [[(x & _ & _ & Ex) _]|HA]; try discriminate; eauto. }
  destruct Hx as (o & Ho & Eo & Hspec).
  destruct (reach _ _ Hr) as (l & H).
  destruct (step_ok _ _ hashf matches dflt c Hpol _ t l o H Hcfg Ho) as
    [(?&?&E')|[(?&?&E')|(t1 & r & l1 & E' & H1 & Hst & _ & _)]]; rewrite Eo in E'; try discriminate.
  injection E' as <- <-. destruct (Hspec _ _ _ Hst) as [-> Hin]. split; [reflexivity|].
  destruct (lookup_result t' l1 k _ H1) as (r & Ef & _ & [(p' & Hin' & Hm' & ->)|(Hnone & _)]).
  - rewrite Ef. repeat f_equal.
    pose proof (i_uniq _ _ _ _ _ _ _ _ H1 k) as Hu.
    assert (I1 : In p (List.filter (matches k) (contents_l l1))) by (apply filter_In; auto).
    assert (I2 : In p' (List.filter (matches k) (contents_l l1))) by (apply filter_In; auto).
    destruct (List.filter (matches k) (contents_l l1)) as [|a [|b z]]; cbn in *; try lia; try contradiction.
    destruct I1 as [<-|[]]. destruct I2 as [<-|[]]. reflexivity.
  - rewrite (Hnone _ Hin) in Hm. discriminate.
Qed.

(** Overwriting through a Result / Insert is what later finds see. *)
Lemma overwrite_seen capacity t k p t' q o :
  reachable capacity t -> matches k p = true ->
  (o = OUpdate k p \/ exists alloc, o = OSet k p alloc) ->
  step t o = Ok (t', RFound q) -> step t' (OFind k) = Ok (t', RFound p).
Proof.
  intros Hr Hm Ho Eo. destruct (reach _ _ Hr) as (l & H).
  assert (Hop : op_ok matches o) by (destruct Ho as [->|(a & ->)]; exact Hm).
  destruct (step_ok _ _ hashf matches dflt c Hpol _ t l o H Hcfg Hop) as
    [(?&?&E')|[(?&?&E')|(t1 & r & l1 & E' & H1 & Hst & _ & _)]]; rewrite Eo in E'; try discriminate.
  injection E' as <- <-.
  assert (Hin : In p (contents_l l1)).
  { destruct Ho as [->|(a & ->)]; cbn in Hst.
    - destruct Hst as [[_ HP]|[[_ E] _]]; [|discriminate].
      eapply Permutation_in; [symmetry; exact HP|now left].
    - destruct Hst as [[_ HP]|[(E & _)|(E & _)]]; try discriminate.
      eapply Permutation_in; [symmetry; exact HP|now left]. }
  destruct (lookup_result t' l1 k _ H1) as (r & Ef & _ & [(p' & Hin' & Hm' & ->)|(Hnone & _)]).
  - rewrite Ef. repeat f_equal.
    pose proof (i_uniq _ _ _ _ _ _ _ _ H1 k) as Hu.
    assert (I1 : In p (List.filter (matches k) (contents_l l1))) by (apply filter_In; auto).
    assert (I2 : In p' (List.filter (matches k) (contents_l l1))) by (apply filter_In; auto).
    destruct (List.filter (matches k) (contents_l l1)) as [|a [|b z]]; cbn in *; try lia; try contradiction.
    destruct I1 as [<-|[]]. destruct I2 as [<-|[]]. reflexivity.
  - rewrite (Hnone _ Hin) in Hm. discriminate.
Qed.

Lemma release_no_assert capacity ops :
  debug c = false -> capacity_ok c capacity -> Forall (op_ok matches) ops ->
  life capacity ops <> Fault AssertFail.
Proof.
  intros Hd Hc Hops E. pose proof (life_refines capacity ops Hc Hops) as H. rewrite E in H.
  destruct H. congruence.
Qed.

Lemma at_limit_reports capacity t alloc :
  reachable capacity t -> overloaded t = true -> kMaxCapacity c <= cap t ->
  checkDensity c alloc t = if aborts c then Fault Abort else Ok (t, false).
Proof.
  intros Hr Ho Hk. destruct (reach _ _ Hr) as (l & H).
  unfold checkDensity. rewrite Ho.
  replace (underloaded t) with false.
  - unfold grow. rewrite (proj2 (N.leb_le _ _) Hk). unfold reportAllocationOverflow. now destruct (aborts c).
  - unfold underloaded, overloaded in *.
    pose proof (i_load _ _ _ _ _ _ _ _ H). pose proof (inv_small _ _ _ _ _ _ _ _ H) as [Hs Hcs].
    change (2 ^ 31) with 2147483648 in *.
    rewrite !uadd_small in Ho by (change (2 ^ 32) with 4294967296; lia).
    rewrite uadd_small by (change (2 ^ 32) with 4294967296; lia). lia.
Qed.

Lemma growth_at_limit capacity t alloc :
  reachable capacity t -> overloaded t = true ->
  (kMaxCapacity c <= cap t -> checkDensity c alloc t = if aborts c then Fault Abort else Ok (t, false)) /\
  (cap t < kMaxCapacity c < 2 * cap t -> debug c = true -> checkDensity c alloc t = Fault AssertFail) /\
  (2 * cap t <= kMaxCapacity c -> checkDensity c alloc t <> Fault AssertFail).
Proof.
  intros Hr Ho. split; [|split].
  - intros Hk. eapply at_limit_reports; eauto.
  - intros Hk Hd. destruct (reach _ _ Hr) as (l & H). unfold checkDensity. rewrite Ho.
    replace (underloaded t) with false.
    + unfold grow. rewrite (proj2 (N.leb_gt _ _) (proj1 Hk)).
      assert (HkM : kMaxCapacity c < 2 ^ 31).
      { unfold kMaxCapacity. change (2 ^ 31) with 2147483648.
        destruct (N.eq_dec (sizeof_entry c) 0) as [->|Hz]; [now vm_compute|].
        apply N.div_lt_upper_bound; [exact Hz|]. nia. }
      unfold changeCapacity, ushl. rewrite N.shiftl_mul_pow2. change (2 ^ 1) with 2.
      rewrite N.mod_small.
      * unfold assert_. rewrite Hd, (proj2 (N.leb_gt _ _)) by lia. reflexivity.
      * change (2 ^ 32) with 4294967296. change (2 ^ 31) with 2147483648 in HkM. lia.
    + unfold underloaded, overloaded in *.
      pose proof (i_load _ _ _ _ _ _ _ _ H). pose proof (inv_small _ _ _ _ _ _ _ _ H) as [Hs Hcs].
      change (2 ^ 31) with 2147483648 in *.
      rewrite !uadd_small in Ho by (change (2 ^ 32) with 4294967296; lia).
      rewrite uadd_small by (change (2 ^ 32) with 4294967296; lia). lia.
  - intros Hk E. destruct (reach _ _ Hr) as (l & H).
    destruct (capacity_discipline _ _ Hr) as (_ & _ & _ & _ & _ & Hlt). unfold elements in Hlt.
    destruct (checkDensity_ok _ _ _ _ _ _ alloc t l H Hcfg) as [(_ & [[_ HL]|HL] & _)|[(_ & _ & X)|[(_ & _ & X)|[(X & _)|(t' & l' & X & _)]]]];
      try lia; rewrite E in X; discriminate.
Qed.
End Facts.

Lemma init_refused_destroy (Payload : Type) c capacity : config_ok c -> capacity_ok c capacity -> aborts c = false ->
  exists t : table Payload, init c false ctor capacity = Ok (t, false) /\ destroy t = Fault NullDeref.
Proof.
  intros Hc Hcap Ha. unfold config_ok in Hc.
  assert (HkM : kMaxCapacity c < 2 ^ 31).
  { unfold kMaxCapacity. change (2 ^ 31) with 2147483648.
    destruct (N.eq_dec (sizeof_entry c) 0) as [->|Hz]; [now vm_compute|].
    apply N.div_lt_upper_bound; [exact Hz|]. nia. }
  unfold init, kMinCapacity, createTable, am_malloc_table. rewrite Ha.
  destruct (N.ltb_spec capacity 16) as [Hlt|Hge].
  - rewrite assert_true by reflexivity. cbn [bind].
    replace (uw 32 16) with 16 by reflexivity.
    rewrite assert_true by now apply N.leb_le. cbn [bind]. eexists. split; reflexivity.
  - destruct Hcap as [Hcap|[(k & Hk) Hb]]; [lia|].
    rewrite (proj2 (N.ltb_ge _ _)) by lia.
    rewrite assert_true.
    + cbn [bind]. assert (E : uw 32 capacity = capacity).
      { unfold uw. apply N.mod_small. change (2 ^ 32) with 4294967296. change (2 ^ 31) with 2147483648 in HkM. lia. }
      rewrite E. rewrite assert_true by (apply N.leb_le; lia). cbn [bind].
      eexists. split; [reflexivity|]. unfold destroy, for_entries. cbn [cap tbl].
      destruct (N.eqb_spec capacity 0); [lia|]. reflexivity.
    + apply IsPowerOfTwo_iff; [|now exists k]. change (2 ^ 31) with 2147483648 in HkM.
      change (2 ^ 64) with 18446744073709551616. lia.
Qed.

Lemma init_false (Payload : Type) c alloc capacity (t : table Payload) :
  init c alloc ctor capacity = Ok (t, false) ->
  aborts c = false /\ (kMaxCapacity c < capacity \/ alloc = false) /\
  (kMaxCapacity c < capacity -> 16 <= capacity -> t = ctor /\ destroy t = Ok tt).
Proof.
  unfold init, kMinCapacity, createTable, am_malloc_table, reportAllocationOverflow.
  destruct (N.ltb_spec capacity 16) as [Hlt|Hge].
  - destruct (assert_ (debug c) (IsPowerOfTwo 64 16)); cbn [bind]; try discriminate.
    destruct (assert_ _ _); cbn [bind]; try discriminate.
    destruct alloc, (aborts c); cbn [bind]; intros E; try discriminate.
    repeat split; auto; lia.
  - destruct (N.ltb_spec (kMaxCapacity c) capacity) as [Hb|Hb].
    + destruct (aborts c); cbn [bind]; intros E; [discriminate|]. injection E as <-. auto.
    + destruct (assert_ _ _); cbn [bind]; try discriminate.
      destruct (assert_ _ _); cbn [bind]; try discriminate.
      destruct alloc, (aborts c); cbn [bind]; intros E; try discriminate.
      repeat split; auto; lia.
Qed.
