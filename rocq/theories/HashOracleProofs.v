(** Proofs about hash tables under a HashPolicy with state that may throw; as HashRobustProofs.v, with its invariant. *)
From Verif Require Import Base BitsModel BitsSpec BitsProofs HashTableModel HashTableSpec HashTableProofs HashRobustModel HashRobustSpec
  HashRobustProofs HashOracleModel HashOracleSpec.
Local Open Scope N_scope.

Section Oracle.
Variable Key Payload : Type.
Variable dflt : Payload.
Variable c : cfg.
Variable m0 : N.
Notation table := (table Payload).
Notation entry := (entry Payload).
Notation none := (fun (_ : Key) (_ : Payload) => false).
Notation zero := (fun (_ : Key) => 0%N).
Notation I := (inv Key Payload zero none c m0).
Notation Il := (inv_l Key Payload zero none).
Notation bag := (contents_l Payload).

(** What a lookup can return: a live slot holding a payload that was accepted, or a dead one. *)
Definition hitO (x : ocall Key Payload) (l : list entry) (k : Key) (s : nat) : Prop :=
  exists e, nth_error l s = Some e /\
    (isLive e = false \/ (isLive e = true /\ exists p, e_pay e = Val p /\ accepted x k p)).

Lemma live_in l cp s e p : Il l cp -> nth_error l s = Some e -> isLive e = true -> e_pay e = Val p -> In p (bag l).
Proof.
  intros HI He L Hp. destruct (pick_slot Key Payload l cp s e p HI He L Hp) as (rest & Hr & _).
  apply (Permutation_in p (Permutation_sym Hr)). now left.
Qed.
Lemma computeHashO_live (x : ocall Key Payload) k h : computeHashO x k = Some h -> 1 < h < 2 ^ 32.
Proof.
  unfold computeHashO. destruct (hash_at x k) as [r|]; [|discriminate]. intros E. injection E as <-.
  exact (computeHash_live Key (fun _ => r) k).
Qed.

Section Lookup.
Variable x : ocall Key Payload.
Lemma lookup_loop_any l cp k : Il l cp -> forall fuel n d h, h < 2 ^ 32 ->
  (fuel + d = N.to_nat cp)%nat ->
  (exists d0 e, (d <= d0 < N.to_nat cp)%nat /\ nth_error l (slotn cp h d0) = Some e /\ isFree e = true) ->
  (lookup_loopO c x n fuel l cp k h ((h + N.of_nat d) mod 2 ^ 32) = Ok None /\ throws_on x (bag l) k) \/
  exists s, lookup_loopO c x n fuel l cp k h ((h + N.of_nat d) mod 2 ^ 32) = Ok (Some s) /\ hitO x l k s.
Proof.
  intros HI. induction fuel as [|f IH]; intros n d h Hh Hf (d0 & e0 & Hd0 & He0 & Hfree0); [lia|].
  cbn [lookup_loopO].
  rewrite (probe_slotn cp h d (il_cap _ _ _ _ _ _ HI) Hh), next_hash.
  destruct (slot_exists _ _ _ _ l cp h d HI) as (e & He).
  rewrite (slot_get_ok _ _ _ He). cbn [bind].
  assert (Hcont : isFree e = false -> forall n, (lookup_loopO c x n f l cp k h ((h + N.of_nat (S d)) mod 2 ^ 32) = Ok None /\ throws_on x (bag l) k) \/
    exists s, lookup_loopO c x n f l cp k h ((h + N.of_nat (S d)) mod 2 ^ 32) = Ok (Some s) /\ hitO x l k s).
  { intros F n'. apply IH; [exact Hh|lia|]. exists d0, e0. repeat split; auto; try lia.
    destruct (Nat.eq_dec d d0) as [->|]; [congruence|lia]. }
  destruct (entry_cases _ e) as [(F & R & L)|[(F & R & L)|(F & R & L)]]; rewrite F.
  - right. eexists. split; [reflexivity|]. exists e. auto.
  - rewrite L. cbn [andb]. now apply Hcont.
  - rewrite L. cbn [andb]. destruct (sameHash e h); [|now apply Hcont].
    destruct (live_val _ _ _ _ _ _ HI He L) as (p & Hp).
    rewrite (payload_live Payload c _ _ L Hp). cbn [bind].
    destruct (matches_at x n k p) as [[|]|] eqn:Em; [|now apply Hcont|].
    + right. eexists. split; [reflexivity|]. exists e. split; [exact He|]. right. split; [exact L|]. exists p. split; [exact Hp|]. now exists n.
    + left. split; [reflexivity|]. right. exists n, p. split; [exact (live_in l cp _ e p HI He L Hp)|exact Em].
Qed.
Lemma find_any t l k : I t l -> (findO c x t k = Ok None /\ throws_on x (bag l) k) \/ exists s, findO c x t k = Ok (Some s) /\ hitO x l k s.
Proof.
  intros H. pose proof (i_l _ _ _ _ _ _ _ _ H) as HI. unfold findO.
  destruct (computeHashO x k) as [h|] eqn:Eh.
  2: { left. split; [reflexivity|]. left. unfold computeHashO in Eh. destruct (hash_at x k); congruence. }
  rewrite probulator_ok by apply HI. cbn [bind]. rewrite (i_tbl _ _ _ _ _ _ _ _ H). cbn [deref bind].
  pose proof (computeHashO_live x k h Eh) as [_ Hh].
  destruct (exists_free _ _ _ _ l (cap t) h HI (inv_nonfree _ _ _ _ _ _ _ _ H)) as (d & e & Hd & He & Hf).
  pose proof (lookup_loop_any l (cap t) k HI (N.to_nat (cap t)) 0 0 h Hh) as X.
  replace ((h + N.of_nat 0) mod 2 ^ 32) with h in X by (cbn; now rewrite N.add_0_r, N.mod_small).
  apply X; [lia|]. exists d, e. repeat split; auto; lia.
Qed.

Lemma lookupForAdd_loop_any l cp k : Il l cp -> forall fuel n d h fr, h < 2 ^ 32 ->
  (fuel + d = N.to_nat cp)%nat ->
  (forall d', (d' < d)%nat -> exists e, nth_error l (slotn cp h d') = Some e /\ isFree e = false) ->
  (forall s', fr = Some s' -> insert_pos Payload l cp h s') ->
  (exists d0 e, (d <= d0 < N.to_nat cp)%nat /\ nth_error l (slotn cp h d0) = Some e /\ isFree e = true) ->
  (lookupForAdd_loopO c x n fuel l cp k h ((h + N.of_nat d) mod 2 ^ 32) fr = Ok None /\ throws_on x (bag l) k) \/
  exists s fr', lookupForAdd_loopO c x n fuel l cp k h ((h + N.of_nat d) mod 2 ^ 32) fr = Ok (Some (s, fr')) /\
    hitO x l k s /\
    (forall s', fr' = Some s' -> insert_pos Payload l cp h s') /\
    ((exists e, nth_error l s = Some e /\ isLive e = false) -> insert_pos Payload l cp h s).
Proof.
  intros HI. induction fuel as [|f IH]; intros n d h fr Hh Hf Hpre Hfr (d0 & e0 & Hd0 & He0 & Hfree0); [lia|].
  cbn [lookupForAdd_loopO].
  rewrite (probe_slotn cp h d (il_cap _ _ _ _ _ _ HI) Hh), next_hash.
  destruct (slot_exists _ _ _ _ l cp h d HI) as (e & He).
  rewrite (slot_get_ok _ _ _ He). cbn [bind].
  assert (Hchain : chain Payload l cp (slotn cp h d) h) by (exists d; repeat split; [lia|exact Hpre]).
  assert (Hcont : isFree e = false -> forall fr1, (forall s', fr1 = Some s' -> insert_pos Payload l cp h s') ->
    forall n, (lookupForAdd_loopO c x n f l cp k h ((h + N.of_nat (S d)) mod 2 ^ 32) fr1 = Ok None /\ throws_on x (bag l) k) \/
    exists s fr', lookupForAdd_loopO c x n f l cp k h ((h + N.of_nat (S d)) mod 2 ^ 32) fr1 = Ok (Some (s, fr')) /\
      hitO x l k s /\ (forall s', fr' = Some s' -> insert_pos Payload l cp h s') /\
      ((exists e, nth_error l s = Some e /\ isLive e = false) -> insert_pos Payload l cp h s)).
  { intros F fr1 H1 n'. apply IH; auto; [lia| |].
    - intros d' Hd'. destruct (Nat.eq_dec d' d) as [->|]; [eauto|apply Hpre; lia].
    - exists d0, e0. repeat split; auto; try lia. destruct (Nat.eq_dec d d0) as [->|]; [congruence|lia]. }
  destruct (entry_cases _ e) as [(F & R & L)|[(F & R & L)|(F & R & L)]]; rewrite F, ?R.
  - right. eexists _, _. split; [reflexivity|]. split; [exists e; auto|]. split; [exact Hfr|].
    intros _. split; [eauto|exact Hchain].
  - apply Hcont; auto. destruct fr as [s0|]; [exact Hfr|].
    intros s' E. injection E as <-. split; [eauto|exact Hchain].
  - destruct (sameHash e h); [|now apply Hcont].
    destruct (live_val _ _ _ _ _ _ HI He L) as (p & Hp).
    rewrite (payload_live Payload c _ _ L Hp). cbn [bind].
    destruct (matches_at x n k p) as [[|]|] eqn:Em; [|now apply Hcont|].
    + right. eexists _, _. split; [reflexivity|].
      split; [exists e; split; [exact He|]; right; split; [exact L|]; exists p; split; [exact Hp|now exists n]|]. split; [exact Hfr|].
      intros (e' & He' & L'). congruence.
    + left. split; [reflexivity|]. right. exists n, p. split; [exact (live_in l cp _ e p HI He L Hp)|exact Em].
Qed.
Lemma findForAdd_any t l k : I t l ->
  (findForAddO c x t k = Ok None /\ throws_on x (bag l) k) \/
  exists s h, findForAddO c x t k = Ok (Some (s, h)) /\ 1 < h < 2 ^ 32 /\ hitO x l k s /\
    ((exists e, nth_error l s = Some e /\ isLive e = false) -> insert_pos Payload l (cap t) h s).
Proof.
  intros H. pose proof (i_l _ _ _ _ _ _ _ _ H) as HI. unfold findForAddO.
  destruct (computeHashO x k) as [h|] eqn:Eh.
  2: { left. split; [reflexivity|]. left. unfold computeHashO in Eh. destruct (hash_at x k); congruence. }
  rewrite probulator_ok by apply HI. cbn [bind]. rewrite (i_tbl _ _ _ _ _ _ _ _ H). cbn [deref bind].
  pose proof (computeHashO_live x k h Eh) as Hl. assert (Hh : h < 2 ^ 32) by apply Hl.
  destruct (exists_free _ _ _ _ l (cap t) h HI (inv_nonfree _ _ _ _ _ _ _ _ H)) as (d & e & Hd & He & Hf).
  destruct (lookupForAdd_loop_any l (cap t) k HI (N.to_nat (cap t)) 0 0 h None Hh) as [[Es Ht]|(s & fr & Es & Hs & Hfr & Hi)].
  - lia.
  - intros d' Hd'; lia.
  - discriminate.
  - exists d, e. repeat split; auto; lia.
  - replace ((h + N.of_nat 0) mod 2 ^ 32) with h in Es by (cbn; now rewrite N.add_0_r, N.mod_small).
    rewrite Es. cbn [bind]. auto.
  - right. replace ((h + N.of_nat 0) mod 2 ^ 32) with h in Es by (cbn; now rewrite N.add_0_r, N.mod_small).
    rewrite Es. cbn [bind]. pose proof Hs as (e' & He' & Hpost). rewrite (slot_get_ok _ _ _ He'). cbn [bind].
    destruct fr as [s'|]; [|exists s, h; auto].
    destruct (isLive e') eqn:L; cbn [negb]; [exists s, h; auto|].
    pose proof (Hfr s' eq_refl) as Hpos. exists s', h. split; [reflexivity|]. split; [exact Hl|]. split; [|auto].
    destruct Hpos as [(er & Her & Lr) _]. exists er. auto.
Qed.
End Lookup.

Notation lim := (limit Payload c).
Definition post (t : table) (l : list entry) (x : ocall Key Payload) : Prop :=
  (debug c = true /\ lim t /\ ostep dflt c t x = Fault AssertFail) \/
  ((refused _ _ (call_op x) = true \/ lim t) /\ aborts c = true /\ ostep dflt c t x = Fault Abort) \/
  (exists t' r l', ostep dflt c t x = Ok (t', r) /\ I t' l' /\
     obag_step (may Payload c t) (bag l) x r (bag l') /\
     nelem t' + ndel t' <= nelem t + ndel t + adds _ _ (call_op x)).

Lemma ostep_ok t l x : I t l -> 16 <= kMaxCapacity c -> post t l x.
Proof.
  intros H Hk. destruct x as [hf ma o]. unfold post, ostep. cbn [call_op].
  pose proof (i_l _ _ _ _ _ _ _ _ H) as HI.
  assert (Hadd : forall alloc s h, 1 < h < 2 ^ 32 -> insert_pos Payload l (cap t) (h) s ->
    (debug c = true /\ lim t /\ forall q, add c alloc t (s, h) q = Fault AssertFail) \/
    ((alloc = false \/ lim t) /\ aborts c = true /\ forall q, add c alloc t (s, h) q = Fault Abort) \/
    ((alloc = false \/ lim t) /\ aborts c = false /\
       forall q, add c alloc t (s, h) q = Ok (t, (s, h), false)) \/
    (exists t1 l1 s1, added Key Payload zero none c t l (h) t1 l1 s1 /\ (s1 < length l1)%nat /\
       nelem t1 + ndel t1 <= nelem t + ndel t + 1 /\
       forall q, add c alloc t (s, h) q =
         Ok (put Payload t1 l1 s1 (h) q, (s1, h), true))).
  { intros alloc s h Hl Hpos.
    destruct (internalAdd_ok Key Payload zero none c m0 alloc t l s h H Hk Hpos Hl) as
      [(?&?&E)|[(?&?&E)|[(?&?&E)|(t1 & l1 & s1 & E & Ha)]]].
    - left. repeat split; auto. intros q. unfold add. now rewrite E.
    - right; left. repeat split; auto. intros q. unfold add. now rewrite E.
    - right; right; left. repeat split; auto. intros q. unfold add. now rewrite E.
    - right; right; right. exists t1, l1, s1. split; [exact Ha|]. split.
      { destruct Ha as (_ & [(e & He & _) _] & _). eapply nth_lt; exact He. }
      split; [destruct Ha as (_&_&_&_&_&_&_&_&_&_&Htot); exact Htot|].
      intros q. exact (add_of_internal Key Payload zero none c alloc t l s _ q t1 l1 s1 E Ha). }
  assert (Hfound : forall s e, nth_error l s = Some e -> found t s = Ok (isLive e)).
  { intros s e He. exact (found_ok _ _ _ _ _ _ _ _ _ _ H He). }
  assert (Hread : forall s e p, nth_error l s = Some e -> isLive e = true -> e_pay e = Val p -> read c t s = Ok p).
  { intros s e p He L Hp. exact (read_ok _ _ _ _ _ _ _ _ _ _ _ H He L Hp). }
  assert (Hpick : forall s e p, nth_error l s = Some e -> isLive e = true -> e_pay e = Val p -> exists rest, pick (bag l) p rest).
  { intros s e p He L Hp. destruct (pick_slot Key Payload l (cap t) s e p HI He L Hp) as (rest & Hr & _). eauto. }
  destruct o as [k p alloc|k p alloc|k p alloc|k p|k|k|k| |alloc| |pred| | ]; cbv beta zeta; cbn [call_op step adds refused].
  - (* OAdd *)
    destruct (findForAdd_any (OCall hf ma (OAdd k p alloc)) t l k H) as [[Es Hth]|(s & h & Es & Hl & (e & He & Hpost) & Hins)]; rewrite Es; cbn [bind fst];
      [cbn; right; right; exists t, None, l; split; [reflexivity|]; split; [exact H|]; split; [cbn; split; [reflexivity|]; eexists; split; [reflexivity|exact Hth]|lia]|]. rewrite (Hfound _ _ He). cbn [bind].
    destruct Hpost as [L|(L & p0 & Hp0 & Hm0)]; rewrite L.
    + destruct (Hadd alloc s h Hl) as [(?&?&E)|[(Hr&?&E)|[(Hr&?&E)|(t1 & l1 & s1 & Ha & Hlt & Htot & E)]]]; eauto;
        rewrite (E p); cbn [bind].
      * left. auto.
      * right; left. split; [|auto]. destruct Hr as [->|]; auto.
      * right; right. exists t, (Some RFailed), l. split; [reflexivity|]. split; [exact H|]. split; [|lia].
        cbn. right. right. repeat split; auto.
      * right; right. cbn [fst]. rewrite (read_put _ _ _ _ _ _ _ Hlt) by apply Hl. cbn [bind].
        destruct (put_any Key Payload c m0 t l _ p t1 l1 s1 H Hl Ha) as (H' & HP').
        eexists _, _, _. split; [reflexivity|]. split; [exact H'|]. split; [|exact Htot].
        cbn. right. left. auto.
    + right; right. rewrite (Hread _ _ _ He L Hp0). cbn [bind].
      exists t, (Some (RFound p0)), l. split; [reflexivity|]. split; [exact H|]. split; [|lia].
      cbn. left. destruct (Hpick _ _ _ He L Hp0) as (rest & Hr). exists p0, rest. auto.
  - (* OAddInPlace *)
    destruct (findForAdd_any (OCall hf ma (OAddInPlace k p alloc)) t l k H) as [[Es Hth]|(s & h & Es & Hl & (e & He & Hpost) & Hins)]; rewrite Es; cbn [bind fst];
      [cbn; right; right; exists t, None, l; split; [reflexivity|]; split; [exact H|]; split; [cbn; split; [reflexivity|]; eexists; split; [reflexivity|exact Hth]|lia]|]. rewrite (Hfound _ _ He). cbn [bind].
    destruct Hpost as [L|(L & p0 & Hp0 & Hm0)]; rewrite L.
    + destruct (Hadd alloc s h Hl) as [(?&?&E)|[(Hr&?&E)|[(Hr&?&E)|(t1 & l1 & s1 & Ha & Hlt & Htot & E)]]]; eauto;
        rewrite (E dflt); cbn [bind].
      * left. auto.
      * right; left. split; [|auto]. destruct Hr as [->|]; auto.
      * right; right. exists t, (Some RFailed), l. split; [reflexivity|]. split; [exact H|]. split; [|lia].
        cbn. right. right. repeat split; auto.
      * right; right. cbn [fst].
        rewrite (write_put _ _ _ _ _ _ _ _ Hlt) by apply Hl. cbn [bind].
        rewrite (read_put _ _ _ _ _ _ _ Hlt) by apply Hl. cbn [bind].
        destruct (put_any Key Payload c m0 t l _ p t1 l1 s1 H Hl Ha) as (H' & HP').
        eexists _, _, _. split; [reflexivity|]. split; [exact H'|]. split; [|exact Htot].
        cbn. right. left. auto.
    + right; right. rewrite (Hread _ _ _ He L Hp0). cbn [bind].
      exists t, (Some (RFound p0)), l. split; [reflexivity|]. split; [exact H|]. split; [|lia].
      cbn. left. destruct (Hpick _ _ _ He L Hp0) as (rest & Hr). exists p0, rest. auto.
  - (* OSet *)
    destruct (findForAdd_any (OCall hf ma (OSet k p alloc)) t l k H) as [[Es Hth]|(s & h & Es & Hl & (e & He & Hpost) & Hins)]; rewrite Es; cbn [bind fst];
      [cbn; right; right; exists t, None, l; split; [reflexivity|]; split; [exact H|]; split; [cbn; split; [reflexivity|]; eexists; split; [reflexivity|exact Hth]|lia]|]. rewrite (Hfound _ _ He). cbn [bind].
    destruct Hpost as [L|(L & p0 & Hp0 & Hm0)]; rewrite L.
    + destruct (Hadd alloc s h Hl) as [(?&?&E)|[(Hr&?&E)|[(Hr&?&E)|(t1 & l1 & s1 & Ha & Hlt & Htot & E)]]]; eauto;
        rewrite (E p); cbn [bind].
      * left. auto.
      * right; left. split; [|auto]. destruct Hr as [->|]; auto.
      * right; right. exists t, (Some RFailed), l. split; [reflexivity|]. split; [exact H|]. split; [|lia].
        cbn. right. right. repeat split; auto.
      * right; right. cbn [fst]. rewrite (read_put _ _ _ _ _ _ _ Hlt) by apply Hl. cbn [bind].
        destruct (put_any Key Payload c m0 t l _ p t1 l1 s1 H Hl Ha) as (H' & HP').
        eexists _, _, _. split; [reflexivity|]. split; [exact H'|]. split; [|exact Htot].
        cbn. right. left. auto.
    + right; right. rewrite (Hread _ _ _ He L Hp0). cbn [bind].
      destruct (write_any Key Payload c m0 t l s e p0 p H He L Hp0) as (t' & rest & Ew & H' & En & Ed & HP & HP').
      rewrite Ew. cbn [bind]. eexists _, _, _. split; [reflexivity|]. split; [exact H'|]. split; [|lia].
      cbn. left. exists p0, rest. auto.
  - (* OUpdate *)
    right; right. destruct (find_any (OCall hf ma (OUpdate k p)) t l k H) as [[Es Hth]|(s & Es & (e & He & Hpost))]; rewrite Es; cbn [bind];
      [exists t, None, l; split; [reflexivity|]; split; [exact H|]; split; [cbn; split; [reflexivity|]; eexists; split; [reflexivity|exact Hth]|lia]|]. rewrite (Hfound _ _ He). cbn [bind].
    destruct Hpost as [L|(L & p0 & Hp0 & Hm0)]; rewrite L.
    + exists t, (Some RAbsent), l. split; [reflexivity|]. split; [exact H|]. split; [|lia]. cbn. right. auto.
    + rewrite (Hread _ _ _ He L Hp0). cbn [bind].
      destruct (write_any Key Payload c m0 t l s e p0 p H He L Hp0) as (t' & rest & Ew & H' & En & Ed & HP & HP').
      rewrite Ew. cbn [bind]. eexists _, _, _. split; [reflexivity|]. split; [exact H'|]. split; [|lia].
      cbn. left. exists p0, rest. auto.
  - (* OFind *)
    right; right. destruct (find_any (OCall hf ma (OFind k)) t l k H) as [[Es Hth]|(s & Es & (e & He & Hpost))]; rewrite Es; cbn [bind];
      [exists t, None, l; split; [reflexivity|]; split; [exact H|]; split; [cbn; split; [reflexivity|]; eexists; split; [reflexivity|exact Hth]|lia]|]. rewrite (Hfound _ _ He). cbn [bind].
    destruct Hpost as [L|(L & p0 & Hp0 & Hm0)]; rewrite L.
    + exists t, (Some RAbsent), l. split; [reflexivity|]. split; [exact H|]. split; [|lia]. cbn. right. auto.
    + rewrite (Hread _ _ _ He L Hp0). cbn [bind]. exists t, (Some (RFound p0)), l. split; [reflexivity|]. split; [exact H|].
      split; [|lia]. cbn. left. destruct (Hpick _ _ _ He L Hp0) as (rest & Hr). exists p0, rest. auto.
  - (* OFindForAdd *)
    right; right. destruct (findForAdd_any (OCall hf ma (OFindForAdd k)) t l k H) as [[Es Hth]|(s & h & Es & Hl & (e & He & Hpost) & _)]; rewrite Es; cbn [bind fst];
      [exists t, None, l; split; [reflexivity|]; split; [exact H|]; split; [cbn; split; [reflexivity|]; eexists; split; [reflexivity|exact Hth]|lia]|]. rewrite (Hfound _ _ He). cbn [bind].
    destruct Hpost as [L|(L & p0 & Hp0 & Hm0)]; rewrite L.
    + exists t, (Some RAbsent), l. split; [reflexivity|]. split; [exact H|]. split; [|lia]. cbn. right. auto.
    + rewrite (Hread _ _ _ He L Hp0). cbn [bind]. exists t, (Some (RFound p0)), l. split; [reflexivity|]. split; [exact H|].
      split; [|lia]. cbn. left. destruct (Hpick _ _ _ He L Hp0) as (rest & Hr). exists p0, rest. auto.
  - (* ORemove *)
    right; right. unfold removeIfExistsO. destruct (find_any (OCall hf ma (ORemove k)) t l k H) as [[Es Hth]|(s & Es & (e & He & Hpost))]; rewrite Es; cbn [bind];
      [exists t, None, l; split; [reflexivity|]; split; [exact H|]; split; [cbn; split; [reflexivity|]; eexists; split; [reflexivity|exact Hth]|lia]|]. rewrite (Hfound _ _ He). cbn [bind].
    destruct Hpost as [L|(L & p0 & Hp0 & Hm0)]; rewrite L.
    + cbn [bind]. exists t, (Some RUnit), l. split; [reflexivity|]. split; [exact H|]. split; [|lia]. cbn. auto.
    + unfold remove. rewrite (Hfound _ _ He). cbn [bind]. rewrite assert_true by exact L.
      destruct (removeEntry_ok _ _ _ _ _ _ t l s e p0 H He L Hp0) as (t' & Er & H' & Ec & Et & HP).
      rewrite Er. cbn [bind]. eexists _, _, _. split; [reflexivity|]. split; [exact H'|]. split; [|lia].
      cbn. split; [reflexivity|]. right. exists p0. auto.
  - (* OClear *)
    right; right. destruct (clear_ok _ _ _ _ _ _ t l H) as (t' & l' & E & H' & Hc & Hz & _).
    rewrite E. cbn [bind]. exists t', (Some RUnit), l'. split; [reflexivity|]. split; [exact H'|]. split; [cbn; auto|lia].
  - (* OCheckDensity *)
    destruct (checkDensity_ok _ _ _ _ _ _ alloc t l H Hk) as
      [(?&?&E)|[(Hr&?&E)|[(Hr&?&E)|[(Hov&E)|(t' & l' & E & HI' & Ecap & En & Ed & Emin & Hld & HP)]]]];
      rewrite E; cbn [bind].
    + left. auto.
    + right; left. split; [|auto]. destruct Hr as [->|]; auto.
    + right; right. exists t, (Some RFailed), l. split; [reflexivity|]. split; [exact H|]. split; [|lia].
      cbn. right. repeat split; auto.
    + right; right. exists t, (Some RUnit), l. split; [reflexivity|]. split; [exact H|]. split; [|lia]. cbn. auto.
    + right; right. exists t', (Some RUnit), l'. split; [reflexivity|]. split; [exact HI'|]. split; [|lia]. cbn. auto.
  - (* OMove *)
    right; right. cbn [move_ctor]. cbn. exists (Table (cap t) (nelem t) (ndel t) (tbl t) (mincap t)), (Some RUnit), l.
    split; [reflexivity|]. split; [destruct t; exact H|]. split; [cbn; auto|cbn; lia].
  - (* OEraseIf *)
    right; right. destruct (iterate_ok _ _ _ _ dflt _ _ pred t l H) as (t' & l' & E & H' & Ec & Et & _ & Hc).
    rewrite E. cbn [bind]. eexists t', _, l'. split; [reflexivity|]. split; [exact H'|]. split; [|lia].
    cbn. eexists. rewrite Hc. auto.
  - (* OIterate *)
    right; right. destruct (iterate_ok _ _ _ _ dflt _ _ (fun _ => false) t l H) as (t' & l' & E & H' & Ec & Et & Hs & Hc).
    rewrite E. cbn [bind]. eexists t', _, l'. split; [reflexivity|]. split; [exact H'|]. split; [|lia].
    cbn. eexists. rewrite Hc. rewrite filter_all; auto.
  - (* OElements *)
    right; right. exists t, (Some (RNum (nelem t))), l. split; [reflexivity|]. split; [exact H|]. split; [|lia].
    cbn. unfold elements. rewrite (i_nelem _ _ _ _ _ _ _ _ H). auto.
Qed.

Lemma obag_step_mono (f g : bool -> Prop) (S : list Payload) (x : ocall Key Payload) r S' : (forall a, f a -> g a) ->
  obag_step f S x r S' -> obag_step g S x r S'.
Proof. intros Hfg. destruct r as [r|]; [|auto]. destruct x as [hf ma o]. unfold obag_step, normal. cbn [call_op]. destruct o; intuition. Qed.

Definition ops_of (xs : list (ocall Key Payload)) : list (op Key Payload) := map call_op xs.

Lemma orun_ok xs : forall t l n, I t l -> 16 <= kMaxCapacity c -> nelem t + ndel t <= n ->
  let total := n + total_adds _ _ (ops_of xs) in
  (debug c = true /\ over c total /\ orun dflt c t xs = Fault AssertFail) \/
  ((existsb (refused _ _) (ops_of xs) = true \/ over c total) /\ aborts c = true /\ orun dflt c t xs = Fault Abort) \/
  (exists t' rs l', orun dflt c t xs = Ok (t', rs) /\ I t' l' /\
     obag_run (fun a => aborts c = false /\ (a = false \/ over c total)) (bag l) xs rs (bag l')).
Proof.
  induction xs as [|x xs IH]; intros t l n H Hk Hn; cbv zeta.
  - right; right. exists t, [], l. split; [reflexivity|]. split; [exact H|]. constructor.
  - cbn [orun ops_of map existsb]. fold (ops_of xs).
    change (total_adds Key Payload (call_op x :: ops_of xs)) with (adds _ _ (call_op x) + total_adds _ _ (ops_of xs)).
    assert (Hlim : lim t -> over c (n + (adds _ _ (call_op x) + total_adds _ _ (ops_of xs)))).
    { intros Hl. pose proof (limit_over _ _ _ _ _ _ t l n H Hk Hn Hl). unfold over in *. lia. }
    destruct (ostep_ok t l x H Hk) as [(?&?&E)|[(Hr&?&E)|(t1 & r & l1 & E & H1 & Hs & Ht)]];
      rewrite E; cbn [bind].
    + left. auto.
    + right; left. split; [|auto]. destruct Hr as [->|]; auto.
    + destruct (IH t1 l1 (n + adds _ _ (call_op x)) H1 Hk) as
        [(?&?&E')|[(Hr&?&E')|(t' & rs & l' & E' & H' & Hs')]]; [lia| | |];
        rewrite E'; cbn [bind]; rewrite <- ?N.add_assoc in *.
      * left. auto.
      * right; left. split; [|auto]. destruct Hr as [->|]; [left; apply orb_true_r|auto].
      * right; right. exists t', (r :: rs), l'. split; [reflexivity|]. split; [exact H'|].
        econstructor; [|exact Hs']. eapply obag_step_mono; [|exact Hs]. intros a [Ha1 Ha2]. split; [exact Ha1|].
        destruct Ha2; auto.
Qed.

Lemma olife_ok capacity xs : m0 = N.max 16 capacity -> config_ok c -> capacity_ok c capacity ->
  (debug c = true /\ near_limit c (ops_of xs) /\ olife dflt c capacity xs = Fault AssertFail) \/
  ((Exists (fun o => alloc_refused o = true) (ops_of xs) \/ near_limit c (ops_of xs)) /\ aborts c = true /\
     olife dflt c capacity xs = Fault Abort) \/
  (exists t outs S, olife dflt c capacity xs = Ok (t, outs) /\
     obag_run (fun a => aborts c = false /\ (a = false \/ near_limit c (ops_of xs))) [] xs outs S).
Proof.
  intros Hm Hk Hc. destruct (init_ok Key Payload zero none c m0 capacity Hm Hk Hc) as (t & E & Hi & _ & _ & En & Ed).
  unfold olife. rewrite E. cbn [bind].
  destruct (orun_ok xs t (fresh Payload (cap t)) 0 Hi Hk) as [(?&Ho&Er)|[(Ho&?&Er)|(t' & rs & l' & Er & H' & Hs)]];
    [lia| | |]; rewrite Er; cbn [bind]; rewrite N.add_0_l in *.
  - left. split; [auto|]. split; [|auto]. rewrite (total_adds_filter Key Payload dflt) in Ho. exact Ho.
  - right; left. split; [|auto]. destruct Ho as [Ho|Ho].
    + left. exact (refused_ex Key Payload _ Ho).
    + right. rewrite (total_adds_filter Key Payload dflt) in Ho. exact Ho.
  - right; right. rewrite (destroy_ok _ _ _ _ _ _ _ _ H'). cbn [bind].
    exists t', rs, (bag l'). split; [reflexivity|].
    unfold fresh in Hs. rewrite contents_repeat in Hs. rewrite (total_adds_filter Key Payload dflt) in Hs. exact Hs.
Qed.
End Oracle.
