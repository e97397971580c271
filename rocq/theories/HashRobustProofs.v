(** Proofs about hash tables under an arbitrary HashPolicy.  The invariant is that of HashTableProofs for the policy under
    which nothing matches: what remains of it is the bookkeeping of slots, chains and counters. *)
From Verif Require Import Base BitsModel BitsSpec BitsProofs HashTableModel HashTableSpec HashTableProofs HashRobustModel HashRobustSpec.
Local Open Scope N_scope.

Section Robust.
Variable Key Payload : Type.
Variable dflt : Payload.
Variable c : cfg.
Variable m0 : N.
Notation table := (table Payload).
Notation entry := (entry Payload).
Notation none := (fun (_ : Key) (_ : Payload) => false).
Notation zero := (fun (_ : Key) => 0%N).
Notation I := (inv Key Payload zero none c m0).
Notation Il := (inv_l Key Payload zero none).
Notation bag := (contents_l Payload).

Lemma live_val l cp s e : Il l cp -> nth_error l s = Some e -> isLive e = true -> exists p, e_pay e = Val p.
Proof.
  intros HI He L. pose proof (il_entry _ _ _ _ _ _ HI _ _ He) as H. unfold entry_ok in H. rewrite L in H.
  destruct H as (p & H & _). eauto.
Qed.
Lemma pick_slot l cp s e p : Il l cp -> nth_error l s = Some e -> isLive e = true -> e_pay e = Val p ->
  exists rest, pick (bag l) p rest /\ forall e0, exists A B, bag (upd l s e0) = A ++ pay_of _ e0 ++ B /\ Permutation rest (A ++ B).
Proof.
  intros HI He L Hp. exists (bag (upd l s (Entry kRemovedHash Raw))). split.
  - destruct (kill_ok Key Payload zero none l cp s e p HI He L Hp) as (_ & HP & _). exact HP.
  - intros e0. destruct (upd_split l s e0 e He) as (l1 & l2 & E & Hl & E').
    exists (bag l1), (bag l2). rewrite E'. split; [now rewrite contents_app, contents_cons|].
    rewrite E. rewrite upd_at by exact Hl. rewrite contents_app, contents_cons. cbn. reflexivity.
Qed.

(** What a lookup can return: a live slot holding a payload that matched, or a dead one. *)
Definition hit (matches : Key -> Payload -> bool) (l : list entry) (k : Key) (s : nat) : Prop :=
  exists e, nth_error l s = Some e /\
    (isLive e = false \/ (isLive e = true /\ exists p, e_pay e = Val p /\ matches k p = true)).

Section Lookup.
Variable hashf : Key -> N.
Variable matches : Key -> Payload -> bool.

Lemma lookup_loop_any l cp k : Il l cp -> forall fuel d h, h < 2 ^ 32 ->
  (fuel + d = N.to_nat cp)%nat ->
  (exists d0 e, (d <= d0 < N.to_nat cp)%nat /\ nth_error l (slotn cp h d0) = Some e /\ isFree e = true) ->
  exists s, lookup_loop matches c fuel l cp k h ((h + N.of_nat d) mod 2 ^ 32) = Ok s /\ hit matches l k s.
Proof.
  intros HI. induction fuel as [|f IH]; intros d h Hh Hf (d0 & e0 & Hd0 & He0 & Hfree0); [lia|].
  cbn [lookup_loop].
  rewrite (probe_slotn cp h d (il_cap _ _ _ _ _ _ HI) Hh), next_hash.
  destruct (slot_exists _ _ _ _ l cp h d HI) as (e & He).
  rewrite (slot_get_ok _ _ _ He). cbn [bind].
  assert (Hcont : isFree e = false -> exists s, lookup_loop matches c f l cp k h ((h + N.of_nat (S d)) mod 2 ^ 32) = Ok s /\ hit matches l k s).
  { intros F. apply IH; [exact Hh|lia|]. exists d0, e0. repeat split; auto; try lia.
    destruct (Nat.eq_dec d d0) as [->|]; [congruence|lia]. }
  destruct (entry_cases _ e) as [(F & R & L)|[(F & R & L)|(F & R & L)]]; rewrite F.
  - eexists. split; [reflexivity|]. exists e. auto.
  - rewrite L. cbn [andb]. now apply Hcont.
  - rewrite L. cbn [andb]. destruct (sameHash e h); [|now apply Hcont].
    destruct (live_val _ _ _ _ HI He L) as (p & Hp).
    rewrite (payload_live Payload c _ _ L Hp). cbn [bind].
    destruct (matches k p) eqn:Em; [|now apply Hcont].
    eexists. split; [reflexivity|]. exists e. eauto 8.
Qed.
Lemma find_any t l k : I t l -> exists s, find hashf matches c t k = Ok s /\ hit matches l k s.
Proof.
  intros H. pose proof (i_l _ _ _ _ _ _ _ _ H) as HI. unfold find.
  rewrite probulator_ok by apply HI. cbn [bind]. rewrite (i_tbl _ _ _ _ _ _ _ _ H). cbn [deref bind].
  set (h := computeHash hashf k). assert (Hh : h < 2 ^ 32) by apply computeHash_live.
  destruct (exists_free _ _ _ _ l (cap t) h HI (inv_nonfree _ _ _ _ _ _ _ _ H)) as (d & e & Hd & He & Hf).
  destruct (lookup_loop_any l (cap t) k HI (N.to_nat (cap t)) 0 h Hh) as (s & Es & Hs); [lia| |].
  - exists d, e. repeat split; auto; lia.
  - exists s. split; [|exact Hs]. rewrite <- Es. f_equal. now rewrite N.add_0_r, N.mod_small.
Qed.

Lemma lookupForAdd_loop_any l cp k : Il l cp -> forall fuel d h fr, h < 2 ^ 32 ->
  (fuel + d = N.to_nat cp)%nat ->
  (forall d', (d' < d)%nat -> exists e, nth_error l (slotn cp h d') = Some e /\ isFree e = false) ->
  (forall s', fr = Some s' -> insert_pos Payload l cp h s') ->
  (exists d0 e, (d <= d0 < N.to_nat cp)%nat /\ nth_error l (slotn cp h d0) = Some e /\ isFree e = true) ->
  exists s fr', lookupForAdd_loop matches c fuel l cp k h ((h + N.of_nat d) mod 2 ^ 32) fr = Ok (s, fr') /\
    hit matches l k s /\
    (forall s', fr' = Some s' -> insert_pos Payload l cp h s') /\
    ((exists e, nth_error l s = Some e /\ isLive e = false) -> insert_pos Payload l cp h s).
Proof.
  intros HI. induction fuel as [|f IH]; intros d h fr Hh Hf Hpre Hfr (d0 & e0 & Hd0 & He0 & Hfree0); [lia|].
  cbn [lookupForAdd_loop].
  rewrite (probe_slotn cp h d (il_cap _ _ _ _ _ _ HI) Hh), next_hash.
  destruct (slot_exists _ _ _ _ l cp h d HI) as (e & He).
  rewrite (slot_get_ok _ _ _ He). cbn [bind].
  assert (Hchain : chain Payload l cp (slotn cp h d) h) by (exists d; repeat split; [lia|exact Hpre]).
  assert (Hcont : isFree e = false -> forall fr1, (forall s', fr1 = Some s' -> insert_pos Payload l cp h s') ->
    exists s fr', lookupForAdd_loop matches c f l cp k h ((h + N.of_nat (S d)) mod 2 ^ 32) fr1 = Ok (s, fr') /\
      hit matches l k s /\ (forall s', fr' = Some s' -> insert_pos Payload l cp h s') /\
      ((exists e, nth_error l s = Some e /\ isLive e = false) -> insert_pos Payload l cp h s)).
  { intros F fr1 H1. apply IH; auto; [lia| |].
    - intros d' Hd'. destruct (Nat.eq_dec d' d) as [->|]; [eauto|apply Hpre; lia].
    - exists d0, e0. repeat split; auto; try lia. destruct (Nat.eq_dec d d0) as [->|]; [congruence|lia]. }
  destruct (entry_cases _ e) as [(F & R & L)|[(F & R & L)|(F & R & L)]]; rewrite F, ?R.
  - eexists _, _. split; [reflexivity|]. split; [exists e; auto|]. split; [exact Hfr|].
    intros _. split; [eauto|exact Hchain].
  - apply Hcont; auto. destruct fr as [s0|]; [exact Hfr|].
    intros s' E. injection E as <-. split; [eauto|exact Hchain].
  - destruct (sameHash e h); [|now apply Hcont].
    destruct (live_val _ _ _ _ HI He L) as (p & Hp).
    rewrite (payload_live Payload c _ _ L Hp). cbn [bind].
    destruct (matches k p) eqn:Em; [|now apply Hcont].
    eexists _, _. split; [reflexivity|]. split; [exists e; eauto 8|]. split; [exact Hfr|].
    intros (e' & He' & L'). congruence.
Qed.
Lemma findForAdd_any t l k : I t l ->
  exists s, findForAdd hashf matches c t k = Ok (s, computeHash hashf k) /\ hit matches l k s /\
    ((exists e, nth_error l s = Some e /\ isLive e = false) -> insert_pos Payload l (cap t) (computeHash hashf k) s).
Proof.
  intros H. pose proof (i_l _ _ _ _ _ _ _ _ H) as HI. unfold findForAdd.
  rewrite probulator_ok by apply HI. cbn [bind]. rewrite (i_tbl _ _ _ _ _ _ _ _ H). cbn [deref bind].
  set (h := computeHash hashf k). assert (Hh : h < 2 ^ 32) by apply computeHash_live.
  destruct (exists_free _ _ _ _ l (cap t) h HI (inv_nonfree _ _ _ _ _ _ _ _ H)) as (d & e & Hd & He & Hf).
  destruct (lookupForAdd_loop_any l (cap t) k HI (N.to_nat (cap t)) 0 h None Hh) as (s & fr & Es & Hs & Hfr & Hi).
  - lia.
  - intros d' Hd'; lia.
  - discriminate.
  - exists d, e. repeat split; auto; lia.
  - replace ((h + N.of_nat 0) mod 2 ^ 32) with h in Es by (cbn; now rewrite N.add_0_r, N.mod_small).
    rewrite Es. cbn [bind]. pose proof Hs as (e' & He' & Hpost). rewrite (slot_get_ok _ _ _ He'). cbn [bind].
    destruct fr as [s'|]; [|exists s; auto].
    destruct (isLive e') eqn:L; cbn [negb]; [exists s; auto|].
    pose proof (Hfr s' eq_refl) as Hpos. exists s'. split; [reflexivity|]. split; [|auto].
    destruct Hpos as [(er & Her & Lr) _]. exists er. auto.
Qed.
End Lookup.

Lemma uniq_none S : uniq Key Payload none S.
Proof. intros k. induction S; cbn; [lia|exact IHS]. Qed.

Lemma put_any t l h p t1 l1 s1 : I t l -> 1 < h < 2 ^ 32 -> added Key Payload zero none c t l h t1 l1 s1 ->
  I (put Payload t1 l1 s1 h p) (upd l1 s1 (Entry h (Val p))) /\
  Permutation (bag (upd l1 s1 (Entry h (Val p)))) (p :: bag l).
Proof.
  intros H Hh (HI1 & Hpos & HP & Htbl & Hn & (e1 & He1 & Hd) & Hld & Hmin & Hmin2 & Hdbg & Htot).
  destruct (fill_ok Key Payload zero none l1 (cap t1) h s1 p e1 HI1 Hpos Hh) as (HI2 & HP2 & HR2); auto.
  { discriminate. }
  assert (HP3 : Permutation (bag (upd l1 s1 (Entry h (Val p)))) (p :: bag l)) by (rewrite HP2; now constructor).
  split; [|exact HP3]. constructor; unfold put; cbn [cap nelem ndel mincap tbl]; auto.
  - apply uniq_none.
  - rewrite (Permutation_length HP3). cbn [length]. rewrite Hn, (i_nelem _ _ _ _ _ _ _ _ H). lia.
  - lia.
  - rewrite Hmin. apply H.
  - rewrite Hmin. exact Hmin2.
  - rewrite Hmin. apply H.
Qed.

Lemma write_any t l s e p p' : I t l -> nth_error l s = Some e -> isLive e = true -> e_pay e = Val p ->
  exists t' rest, write c t s p' = Ok t' /\ I t' (upd l s (Entry (e_hash e) (Val p'))) /\
    nelem t' = nelem t /\ ndel t' = ndel t /\
    pick (bag l) p rest /\ pick (bag (upd l s (Entry (e_hash e) (Val p')))) p' rest.
Proof.
  intros H He L Hp. pose proof (i_l _ _ _ _ _ _ _ _ H) as HI.
  destruct (assign_ok Key Payload zero none l (cap t) s e p p' HI He L Hp) as (HI' & (A & B & EA & EB) & HR); [discriminate|].
  unfold write. rewrite (i_tbl _ _ _ _ _ _ _ _ H). cbn [deref bind]. rewrite (slot_get_ok _ _ _ He). cbn [bind].
  unfold assign. rewrite assert_true by exact L. rewrite Hp. cbn [bind].
  rewrite slot_set_ok by (eapply nth_lt; eassumption). cbn [bind].
  eexists _, (A ++ B). split; [reflexivity|]. cbn [cap nelem ndel].
  split; [|split; [reflexivity|split; [reflexivity|split]]].
  - constructor; cbn [cap nelem ndel mincap tbl]; auto; try apply H.
    + apply uniq_none.
    + rewrite EB, (i_nelem _ _ _ _ _ _ _ _ H), EA, !app_length. reflexivity.
    + rewrite HR. apply H.
  - unfold pick. rewrite EA. symmetry. apply Permutation_middle.
  - unfold pick. rewrite EB. symmetry. apply Permutation_middle.
Qed.

Notation lim := (limit Payload c).
Definition post (t : table) (l : list entry) (x : call Key Payload) : Prop :=
  (debug c = true /\ lim t /\ rstep dflt c t x = Fault AssertFail) \/
  ((refused _ _ (the_op x) = true \/ lim t) /\ aborts c = true /\ rstep dflt c t x = Fault Abort) \/
  (exists t' r l', rstep dflt c t x = Ok (t', r) /\ I t' l' /\
     bag_step (may Payload c t) (bag l) x r (bag l') /\
     nelem t' + ndel t' <= nelem t + ndel t + adds _ _ (the_op x)).

Lemma rstep_ok t l x : I t l -> 16 <= kMaxCapacity c -> post t l x.
Proof.
  intros H Hk. destruct x as [hashf matches o]. unfold post, rstep. cbn [hash_now matches_now the_op].
  pose proof (i_l _ _ _ _ _ _ _ _ H) as HI.
  assert (Hadd : forall k alloc s, insert_pos Payload l (cap t) (computeHash hashf k) s ->
    (debug c = true /\ lim t /\ forall q, add c alloc t (s, computeHash hashf k) q = Fault AssertFail) \/
    ((alloc = false \/ lim t) /\ aborts c = true /\ forall q, add c alloc t (s, computeHash hashf k) q = Fault Abort) \/
    ((alloc = false \/ lim t) /\ aborts c = false /\
       forall q, add c alloc t (s, computeHash hashf k) q = Ok (t, (s, computeHash hashf k), false)) \/
    (exists t1 l1 s1, added Key Payload zero none c t l (computeHash hashf k) t1 l1 s1 /\ (s1 < length l1)%nat /\
       nelem t1 + ndel t1 <= nelem t + ndel t + 1 /\
       forall q, add c alloc t (s, computeHash hashf k) q =
         Ok (put Payload t1 l1 s1 (computeHash hashf k) q, (s1, computeHash hashf k), true))).
  { intros k alloc s Hpos.
    destruct (internalAdd_ok Key Payload zero none c m0 alloc t l s _ H Hk Hpos (computeHash_live Key hashf k)) as
      [(?&?&E)|[(?&?&E)|[(?&?&E)|(t1 & l1 & s1 & E & Ha)]]].
    - left. repeat split; auto. intros q. unfold add. now rewrite E.
    - right; left. repeat split; auto. intros q. unfold add. now rewrite E.
    - right; right; left. repeat split; auto. intros q. unfold add. now rewrite E.
    - right; right; right. exists t1, l1, s1. split; [exact Ha|]. split.
      { destruct Ha as (_ & [(e & He & _) _] & _). eapply nth_lt; exact He. }
      split; [destruct Ha as (_&_&_&_&_&_&_&_&_&_&Htot); exact Htot|].
      intros q. exact (add_of_internal Key Payload zero none c alloc t l s _ q t1 l1 s1 E Ha). }
  assert (Hfound : forall s e, nth_error l s = Some e -> found t s = Ok (isLive e)).
  { intros s e He. exact (found_ok _ _ _ _ _ _ _ _ _ _ H He). }
  assert (Hread : forall s e p, nth_error l s = Some e -> isLive e = true -> e_pay e = Val p -> read c t s = Ok p).
  { intros s e p He L Hp. exact (read_ok _ _ _ _ _ _ _ _ _ _ _ H He L Hp). }
  assert (Hpick : forall s e p, nth_error l s = Some e -> isLive e = true -> e_pay e = Val p -> exists rest, pick (bag l) p rest).
  { intros s e p He L Hp. destruct (pick_slot l (cap t) s e p HI He L Hp) as (rest & Hr & _). eauto. }
  destruct o as [k p alloc|k p alloc|k p alloc|k p|k|k|k| |alloc| |pred| | ]; cbn [step adds refused].
  - (* OAdd *)
    destruct (findForAdd_any hashf matches t l k H) as (s & Es & (e & He & Hpost) & Hins).
    rewrite Es. cbn [bind fst]. rewrite (Hfound _ _ He). cbn [bind].
    destruct Hpost as [L|(L & p0 & Hp0 & Hm0)]; rewrite L.
    + destruct (Hadd k alloc s) as [(?&?&E)|[(Hr&?&E)|[(Hr&?&E)|(t1 & l1 & s1 & Ha & Hlt & Htot & E)]]]; eauto;
        rewrite (E p); cbn [bind].
      * left. auto.
      * right; left. split; [|auto]. destruct Hr as [->|]; auto.
      * right; right. exists t, RFailed, l. split; [reflexivity|]. split; [exact H|]. split; [|lia].
        cbn. right. right. repeat split; auto.
      * right; right. cbn [fst]. rewrite (read_put _ _ _ _ _ _ _ Hlt) by apply computeHash_live. cbn [bind].
        destruct (put_any t l _ p t1 l1 s1 H (computeHash_live Key hashf k) Ha) as (H' & HP').
        eexists _, _, _. split; [reflexivity|]. split; [exact H'|]. split; [|exact Htot].
        cbn. right. left. auto.
    + right; right. rewrite (Hread _ _ _ He L Hp0). cbn [bind].
      exists t, (RFound p0), l. split; [reflexivity|]. split; [exact H|]. split; [|lia].
      cbn. left. destruct (Hpick _ _ _ He L Hp0) as (rest & Hr). exists p0, rest. auto.
  - (* OAddInPlace *)
    destruct (findForAdd_any hashf matches t l k H) as (s & Es & (e & He & Hpost) & Hins).
    rewrite Es. cbn [bind fst]. rewrite (Hfound _ _ He). cbn [bind].
    destruct Hpost as [L|(L & p0 & Hp0 & Hm0)]; rewrite L.
    + destruct (Hadd k alloc s) as [(?&?&E)|[(Hr&?&E)|[(Hr&?&E)|(t1 & l1 & s1 & Ha & Hlt & Htot & E)]]]; eauto;
        rewrite (E dflt); cbn [bind].
      * left. auto.
      * right; left. split; [|auto]. destruct Hr as [->|]; auto.
      * right; right. exists t, RFailed, l. split; [reflexivity|]. split; [exact H|]. split; [|lia].
        cbn. right. right. repeat split; auto.
      * right; right. cbn [fst].
        rewrite (write_put _ _ _ _ _ _ _ _ Hlt) by apply computeHash_live. cbn [bind].
        rewrite (read_put _ _ _ _ _ _ _ Hlt) by apply computeHash_live. cbn [bind].
        destruct (put_any t l _ p t1 l1 s1 H (computeHash_live Key hashf k) Ha) as (H' & HP').
        eexists _, _, _. split; [reflexivity|]. split; [exact H'|]. split; [|exact Htot].
        cbn. right. left. auto.
    + right; right. rewrite (Hread _ _ _ He L Hp0). cbn [bind].
      exists t, (RFound p0), l. split; [reflexivity|]. split; [exact H|]. split; [|lia].
      cbn. left. destruct (Hpick _ _ _ He L Hp0) as (rest & Hr). exists p0, rest. auto.
  - (* OSet *)
    destruct (findForAdd_any hashf matches t l k H) as (s & Es & (e & He & Hpost) & Hins).
    rewrite Es. cbn [bind fst]. rewrite (Hfound _ _ He). cbn [bind].
    destruct Hpost as [L|(L & p0 & Hp0 & Hm0)]; rewrite L.
    + destruct (Hadd k alloc s) as [(?&?&E)|[(Hr&?&E)|[(Hr&?&E)|(t1 & l1 & s1 & Ha & Hlt & Htot & E)]]]; eauto;
        rewrite (E p); cbn [bind].
      * left. auto.
      * right; left. split; [|auto]. destruct Hr as [->|]; auto.
      * right; right. exists t, RFailed, l. split; [reflexivity|]. split; [exact H|]. split; [|lia].
        cbn. right. right. repeat split; auto.
      * right; right. cbn [fst]. rewrite (read_put _ _ _ _ _ _ _ Hlt) by apply computeHash_live. cbn [bind].
        destruct (put_any t l _ p t1 l1 s1 H (computeHash_live Key hashf k) Ha) as (H' & HP').
        eexists _, _, _. split; [reflexivity|]. split; [exact H'|]. split; [|exact Htot].
        cbn. right. left. auto.
    + right; right. rewrite (Hread _ _ _ He L Hp0). cbn [bind].
      destruct (write_any t l s e p0 p H He L Hp0) as (t' & rest & Ew & H' & En & Ed & HP & HP').
      rewrite Ew. cbn [bind]. eexists _, _, _. split; [reflexivity|]. split; [exact H'|]. split; [|lia].
      cbn. left. exists p0, rest. auto.
  - (* OUpdate *)
    right; right. destruct (find_any hashf matches t l k H) as (s & Es & (e & He & Hpost)).
    rewrite Es. cbn [bind]. rewrite (Hfound _ _ He). cbn [bind].
    destruct Hpost as [L|(L & p0 & Hp0 & Hm0)]; rewrite L.
    + exists t, RAbsent, l. split; [reflexivity|]. split; [exact H|]. split; [|lia]. cbn. right. auto.
    + rewrite (Hread _ _ _ He L Hp0). cbn [bind].
      destruct (write_any t l s e p0 p H He L Hp0) as (t' & rest & Ew & H' & En & Ed & HP & HP').
      rewrite Ew. cbn [bind]. eexists _, _, _. split; [reflexivity|]. split; [exact H'|]. split; [|lia].
      cbn. left. exists p0, rest. auto.
  - (* OFind *)
    right; right. destruct (find_any hashf matches t l k H) as (s & Es & (e & He & Hpost)).
    rewrite Es. cbn [bind]. rewrite (Hfound _ _ He). cbn [bind].
    destruct Hpost as [L|(L & p0 & Hp0 & Hm0)]; rewrite L.
    + exists t, RAbsent, l. split; [reflexivity|]. split; [exact H|]. split; [|lia]. cbn. right. auto.
    + rewrite (Hread _ _ _ He L Hp0). cbn [bind]. exists t, (RFound p0), l. split; [reflexivity|]. split; [exact H|].
      split; [|lia]. cbn. left. destruct (Hpick _ _ _ He L Hp0) as (rest & Hr). exists p0, rest. auto.
  - (* OFindForAdd *)
    right; right. destruct (findForAdd_any hashf matches t l k H) as (s & Es & (e & He & Hpost) & _).
    rewrite Es. cbn [bind fst]. rewrite (Hfound _ _ He). cbn [bind].
    destruct Hpost as [L|(L & p0 & Hp0 & Hm0)]; rewrite L.
    + exists t, RAbsent, l. split; [reflexivity|]. split; [exact H|]. split; [|lia]. cbn. right. auto.
    + rewrite (Hread _ _ _ He L Hp0). cbn [bind]. exists t, (RFound p0), l. split; [reflexivity|]. split; [exact H|].
      split; [|lia]. cbn. left. destruct (Hpick _ _ _ He L Hp0) as (rest & Hr). exists p0, rest. auto.
  - (* ORemove *)
    right; right. unfold removeIfExists. destruct (find_any hashf matches t l k H) as (s & Es & (e & He & Hpost)).
    rewrite Es. cbn [bind]. rewrite (Hfound _ _ He). cbn [bind].
    destruct Hpost as [L|(L & p0 & Hp0 & Hm0)]; rewrite L.
    + cbn [bind]. exists t, RUnit, l. split; [reflexivity|]. split; [exact H|]. split; [|lia]. cbn. auto.
    + unfold remove. rewrite (Hfound _ _ He). cbn [bind]. rewrite assert_true by exact L.
      destruct (removeEntry_ok _ _ _ _ _ _ t l s e p0 H He L Hp0) as (t' & Er & H' & Ec & Et & HP).
      rewrite Er. cbn [bind]. eexists _, _, _. split; [reflexivity|]. split; [exact H'|]. split; [|lia].
      cbn. split; [reflexivity|]. right. exists p0. auto.
  - (* OClear *)
    right; right. destruct (clear_ok _ _ _ _ _ _ t l H) as (t' & l' & E & H' & Hc & Hz & _).
    rewrite E. cbn [bind]. exists t', RUnit, l'. split; [reflexivity|]. split; [exact H'|]. split; [cbn; auto|lia].
  - (* OCheckDensity *)
    destruct (checkDensity_ok _ _ _ _ _ _ alloc t l H Hk) as
      [(?&?&E)|[(Hr&?&E)|[(Hr&?&E)|[(Hov&E)|(t' & l' & E & HI' & Ecap & En & Ed & Emin & Hld & HP)]]]];
      rewrite E; cbn [bind].
    + left. auto.
    + right; left. split; [|auto]. destruct Hr as [->|]; auto.
    + right; right. exists t, RFailed, l. split; [reflexivity|]. split; [exact H|]. split; [|lia].
      cbn. right. repeat split; auto.
    + right; right. exists t, RUnit, l. split; [reflexivity|]. split; [exact H|]. split; [|lia]. cbn. auto.
    + right; right. exists t', RUnit, l'. split; [reflexivity|]. split; [exact HI'|]. split; [|lia]. cbn. auto.
  - (* OMove *)
    right; right. cbn [move_ctor]. cbn. exists (Table (cap t) (nelem t) (ndel t) (tbl t) (mincap t)), RUnit, l.
    split; [reflexivity|]. split; [destruct t; exact H|]. split; [cbn; auto|cbn; lia].
  - (* OEraseIf *)
    right; right. destruct (iterate_ok _ _ _ _ dflt _ _ pred t l H) as (t' & l' & E & H' & Ec & Et & _ & Hc).
    rewrite E. cbn [bind]. eexists t', _, l'. split; [reflexivity|]. split; [exact H'|]. split; [|lia].
    cbn. eexists. rewrite Hc. auto.
  - (* OIterate *)
    right; right. destruct (iterate_ok _ _ _ _ dflt _ _ (fun _ => false) t l H) as (t' & l' & E & H' & Ec & Et & Hs & Hc).
    rewrite E. cbn [bind]. eexists t', _, l'. split; [reflexivity|]. split; [exact H'|]. split; [|lia].
    cbn. eexists. rewrite Hc. rewrite filter_all; auto.
  - (* OElements *)
    right; right. exists t, (RNum (nelem t)), l. split; [reflexivity|]. split; [exact H|]. split; [|lia].
    cbn. unfold elements. rewrite (i_nelem _ _ _ _ _ _ _ _ H). auto.
Qed.

Lemma bag_step_mono (f g : bool -> Prop) (S : list Payload) (x : call Key Payload) r S' : (forall a, f a -> g a) ->
  bag_step f S x r S' -> bag_step g S x r S'.
Proof. intros Hfg. destruct x as [hf ma o]. destruct o; cbn; intuition. Qed.

Definition ops_of (xs : list (call Key Payload)) : list (op Key Payload) := map the_op xs.

Lemma rrun_ok xs : forall t l n, I t l -> 16 <= kMaxCapacity c -> nelem t + ndel t <= n ->
  let total := n + total_adds _ _ (ops_of xs) in
  (debug c = true /\ over c total /\ rrun dflt c t xs = Fault AssertFail) \/
  ((existsb (refused _ _) (ops_of xs) = true \/ over c total) /\ aborts c = true /\ rrun dflt c t xs = Fault Abort) \/
  (exists t' rs l', rrun dflt c t xs = Ok (t', rs) /\ I t' l' /\
     bag_run (fun a => aborts c = false /\ (a = false \/ over c total)) (bag l) xs rs (bag l')).
Proof.
  induction xs as [|x xs IH]; intros t l n H Hk Hn; cbv zeta.
  - right; right. exists t, [], l. split; [reflexivity|]. split; [exact H|]. constructor.
  - cbn [rrun ops_of map existsb]. fold (ops_of xs).
    change (total_adds Key Payload (the_op x :: ops_of xs)) with (adds _ _ (the_op x) + total_adds _ _ (ops_of xs)).
    assert (Hlim : lim t -> over c (n + (adds _ _ (the_op x) + total_adds _ _ (ops_of xs)))).
    { intros Hl. pose proof (limit_over _ _ _ _ _ _ t l n H Hk Hn Hl). unfold over in *. lia. }
    destruct (rstep_ok t l x H Hk) as [(?&?&E)|[(Hr&?&E)|(t1 & r & l1 & E & H1 & Hs & Ht)]];
      rewrite E; cbn [bind].
    + left. auto.
    + right; left. split; [|auto]. destruct Hr as [->|]; auto.
    + destruct (IH t1 l1 (n + adds _ _ (the_op x)) H1 Hk) as
        [(?&?&E')|[(Hr&?&E')|(t' & rs & l' & E' & H' & Hs')]]; [lia| | |];
        rewrite E'; cbn [bind]; rewrite <- ?N.add_assoc in *.
      * left. auto.
      * right; left. split; [|auto]. destruct Hr as [->|]; [left; apply orb_true_r|auto].
      * right; right. exists t', (r :: rs), l'. split; [reflexivity|]. split; [exact H'|].
        econstructor; [|exact Hs']. eapply bag_step_mono; [|exact Hs]. intros a [Ha1 Ha2]. split; [exact Ha1|].
        destruct Ha2; auto.
Qed.

Lemma rlife_ok capacity xs : m0 = N.max 16 capacity -> config_ok c -> capacity_ok c capacity ->
  (debug c = true /\ near_limit c (ops_of xs) /\ rlife dflt c capacity xs = Fault AssertFail) \/
  ((Exists (fun o => alloc_refused o = true) (ops_of xs) \/ near_limit c (ops_of xs)) /\ aborts c = true /\
     rlife dflt c capacity xs = Fault Abort) \/
  (exists t outs S, rlife dflt c capacity xs = Ok (t, outs) /\
     bag_run (fun a => aborts c = false /\ (a = false \/ near_limit c (ops_of xs))) [] xs outs S).
Proof.
  intros Hm Hk Hc. destruct (init_ok Key Payload zero none c m0 capacity Hm Hk Hc) as (t & E & Hi & _ & _ & En & Ed).
  unfold rlife. rewrite E. cbn [bind].
  destruct (rrun_ok xs t (fresh Payload (cap t)) 0 Hi Hk) as [(?&Ho&Er)|[(Ho&?&Er)|(t' & rs & l' & Er & H' & Hs)]];
    [lia| | |]; rewrite Er; cbn [bind]; rewrite N.add_0_l in *.
  - left. split; [auto|]. split; [|auto]. rewrite (total_adds_filter Key Payload dflt) in Ho. exact Ho.
  - right; left. split; [|auto]. destruct Ho as [Ho|Ho].
    + left. exact (refused_ex Key Payload _ Ho).
    + right. rewrite (total_adds_filter Key Payload dflt) in Ho. exact Ho.
  - right; right. rewrite (destroy_ok _ _ _ _ _ _ _ _ H'). cbn [bind].
    exists t', rs, (bag l'). split; [reflexivity|].
    unfold fresh in Hs. rewrite contents_repeat in Hs. rewrite (total_adds_filter Key Payload dflt) in Hs. exact Hs.
Qed.
End Robust.
