(** Proofs about the hash table model. *)
From Verif Require Import Base BitsModel BitsSpec BitsProofs HashTableModel HashTableSpec.
Local Open Scope N_scope.

Section HT.
Variable Key Payload : Type.
Variable hashf : Key -> N.
Variable matches : Key -> Payload -> bool.
Variable dflt : Payload.
Variable c : cfg.
Hypothesis Hpol : policy_ok matches hashf.
Variable m0 : N.  (* the minimum capacity, fixed by init() *)

Notation entry := (entry Payload).
Notation table := (table Payload).

(** ** Entries *)
Lemma entry_cases (e : entry) :
  (isFree e = true /\ removed e = false /\ isLive e = false) \/
  (isFree e = false /\ removed e = true /\ isLive e = false) \/
  (isFree e = false /\ removed e = false /\ isLive e = true).
Proof. unfold isFree, removed, isLive, kFreeHash, kRemovedHash. lia. Qed.

Definition entry_ok (e : entry) : Prop :=
  if isLive e then
    exists p, e_pay e = Val p /\ e_hash e < 2 ^ 32 /\
      forall k, matches k p = true -> computeHash hashf k = e_hash e
  else e_pay e = Raw.

Definition pay_of (e : entry) : list Payload :=
  if isLive e then match e_pay e with Val p => [p] | _ => [] end else [].
Definition contents_l (l : list entry) : list Payload := flat_map pay_of l.
Definition contents (t : table) : list Payload := contents_l (entries t).

Definition nonfree (l : list entry) : nat := length (filter (fun e => negb (isFree e)) l).
Definition nremoved (l : list entry) : nat := length (filter removed l).

Lemma computeHash_live k : 1 < computeHash hashf k < 2 ^ 32.
Proof.
  unfold computeHash, umul, uadd, kFreeHash, kRemovedHash.
  set (x := (hashf k * 2654435769) mod 2 ^ 32).
  assert (x < 2 ^ 32) by (apply N.mod_lt; lia). cbn zeta.
  destruct (N.eqb_spec x 0) as [E|E]; cbn [orb]; [rewrite E; split; reflexivity|].
  destruct (N.eqb_spec x 1) as [E1|E1]; [rewrite E1; split; reflexivity|]. lia.
Qed.

(** ** Probing *)
Definition slotn (cp h : N) (d : nat) : nat := N.to_nat ((h + N.of_nat d) mod cp).

Definition cap_ok (cp : N) : Prop := exists j, cp = 2 ^ j /\ 4 <= j <= 31.

Lemma cap_ok_pos cp : cap_ok cp -> 16 <= cp <= 2 ^ 31.
Proof.
  intros (j & -> & Hj). split.
  - change 16 with (2 ^ 4). apply N.pow_le_mono_r; lia.
  - apply N.pow_le_mono_r; lia.
Qed.

Lemma cap_ok_pow2 cp : cap_ok cp -> IsPowerOfTwo 64 cp = true.
Proof.
  intros Hc. apply IsPowerOfTwo_iff.
  - apply cap_ok_pos in Hc. assert (2 ^ 31 < 2 ^ 64) by reflexivity. lia.
  - destruct Hc as (j & -> & _). now exists j.
Qed.

Lemma probulator_ok cp : cap_ok cp -> probulator c cp = Ok tt.
Proof.
  intros H. unfold probulator, assert_. rewrite cap_ok_pow2 by exact H.
  now rewrite andb_false_r.
Qed.

Lemma probe_slotn cp h d : cap_ok cp -> h < 2 ^ 32 ->
  probe cp ((h + N.of_nat d) mod 2 ^ 32) = slotn cp h d.
Proof.
  intros Hc Hh. unfold probe, slotn. f_equal.
  pose proof (cap_ok_pos _ Hc) as [H16 H31].
  rewrite usub1 by (assert (2 ^ 31 < 2 ^ 32) by reflexivity; lia).
  destruct Hc as (j & -> & Hj). rewrite land_pow2_pred.
  assert (E : 2 ^ 32 = 2 ^ (32 - j) * 2 ^ j).
  { rewrite <- N.pow_add_r. f_equal. lia. }
  rewrite E, (N.mul_comm (2 ^ (32 - j))).
  rewrite N.mod_mul_r by (apply N.pow_nonzero; lia).
  rewrite (N.mul_comm (2 ^ j)), N.mod_add by (apply N.pow_nonzero; lia).
  apply N.mod_mod. apply N.pow_nonzero; lia.
Qed.

Lemma slotn_lt cp h d : cap_ok cp -> (slotn cp h d < N.to_nat cp)%nat.
Proof.
  intros H. apply cap_ok_pos in H. unfold slotn.
  assert ((h + N.of_nat d) mod cp < cp) by (apply N.mod_lt; lia). lia.
Qed.

Lemma slotn_surj cp h i : cap_ok cp -> (i < N.to_nat cp)%nat ->
  exists d, (d < N.to_nat cp)%nat /\ slotn cp h d = i.
Proof.
  intros Hc Hi. apply cap_ok_pos in Hc. unfold slotn.
  exists (N.to_nat ((N.of_nat i + (cp - h mod cp)) mod cp)).
  assert (Hm : (N.of_nat i + (cp - h mod cp)) mod cp < cp) by (apply N.mod_lt; lia).
  split; [lia|]. rewrite N2Nat.id.
  rewrite N.add_mod_idemp_r by lia.
  assert (h mod cp < cp) by (apply N.mod_lt; lia).
  pose proof (N.div_mod h cp ltac:(lia)) as Hd.
  replace (h + (N.of_nat i + (cp - h mod cp))) with (N.of_nat i + (1 + h / cp) * cp) by nia.
  rewrite N.mod_add by lia. rewrite N.mod_small by lia. lia.
Qed.

Lemma next_hash h d : uadd 32 ((h + N.of_nat d) mod 2 ^ 32) 1 = (h + N.of_nat (S d)) mod 2 ^ 32.
Proof.
  unfold uadd. rewrite N.add_mod_idemp_l by lia. f_equal. lia.
Qed.

Definition chain (l : list entry) (cp : N) (i : nat) (h : N) : Prop :=
  exists d, (d < N.to_nat cp)%nat /\ i = slotn cp h d /\
    forall d', (d' < d)%nat ->
      exists e, nth_error l (slotn cp h d') = Some e /\ isFree e = false.

Record inv_l (l : list entry) (cp : N) : Prop := {
  il_cap : cap_ok cp;
  il_len : length l = N.to_nat cp;
  il_entry : forall i e, nth_error l i = Some e -> entry_ok e;
  il_chain : forall i e, nth_error l i = Some e -> isLive e = true -> chain l cp i (e_hash e)
}.

(** ** Counting *)
Lemma in_contents l p : (forall i e, nth_error l i = Some e -> entry_ok e) ->
  In p (contents_l l) <-> exists i e, nth_error l i = Some e /\ isLive e = true /\ e_pay e = Val p.
Proof.
  intros Hok. unfold contents_l. rewrite in_flat_map. split.
  - intros (e & He & Hp). apply In_nth_error in He as [i Hi]. exists i, e.
    split; [exact Hi|]. unfold pay_of in Hp. destruct (isLive e) eqn:El; [|destruct Hp].
    split; [reflexivity|]. destruct (e_pay e); cbn in Hp; try contradiction.
    destruct Hp as [->|[]]. reflexivity.
  - intros (i & e & Hi & Hl & Hp). exists e. split; [eapply nth_error_In; eassumption|].
    unfold pay_of. rewrite Hl, Hp. now left.
Qed.

Lemma filter_lt_exists {A} (f : A -> bool) (l : list A) :
  (length (filter f l) < length l)%nat -> exists i x, nth_error l i = Some x /\ f x = false.
Proof.
  induction l as [|x l IH]; cbn; [lia|].
  destruct (f x) eqn:E; cbn; intros H.
  - destruct IH as (i & y & Hi & Hy); [lia|]. exists (S i), y. auto.
  - exists 0%nat, x. auto.
Qed.

Lemma exists_free l cp h : inv_l l cp -> (nonfree l < length l)%nat ->
  exists d e, (d < N.to_nat cp)%nat /\ nth_error l (slotn cp h d) = Some e /\ isFree e = true.
Proof.
  intros HI Hn. destruct (filter_lt_exists _ _ Hn) as (i & e & Hi & He).
  assert (i < length l)%nat by (apply nth_error_Some; congruence).
  destruct (slotn_surj cp h i (il_cap _ _ HI)) as (d & Hd & E).
  { rewrite <- (il_len _ _ HI). assumption. }
  exists d, e. rewrite E. repeat split; auto. now destruct (isFree e).
Qed.

Lemma slot_exists l cp h d : inv_l l cp -> exists e, nth_error l (slotn cp h d) = Some e.
Proof.
  intros HI. destruct (nth_error l (slotn cp h d)) eqn:E; [eauto|].
  apply nth_error_None in E. rewrite (il_len _ _ HI) in E.
  pose proof (slotn_lt cp h d (il_cap _ _ HI)). lia.
Qed.

Lemma nth_slot_get {A} (l : list A) i x : nth_error l i = Some x -> slot_get l i = Ok x.
Proof. apply slot_get_ok. Qed.

Lemma payload_live (e : entry) p : isLive e = true -> e_pay e = Val p -> payload c e = Ok p.
Proof.
  intros Hl Hp. unfold payload, assert_. rewrite Hl, andb_false_r. cbn [bind]. now rewrite Hp.
Qed.

(** Every payload matching [k] is found by probing from computeHash k, behind non-free slots only. *)
Lemma match_pos l cp k p : inv_l l cp -> In p (contents_l l) -> matches k p = true ->
  exists d e, (d < N.to_nat cp)%nat /\
    nth_error l (slotn cp (computeHash hashf k) d) = Some e /\
    isLive e = true /\ e_pay e = Val p /\ e_hash e = computeHash hashf k /\
    forall d', (d' < d)%nat ->
      exists e', nth_error l (slotn cp (computeHash hashf k) d') = Some e' /\ isFree e' = false.
Proof.
  intros HI Hin Hm. apply in_contents in Hin; [|apply (il_entry _ _ HI)].
  destruct Hin as (i & e & Hi & Hl & Hp).
  pose proof (il_entry _ _ HI _ _ Hi) as Hok. unfold entry_ok in Hok. rewrite Hl in Hok.
  destruct Hok as (p' & Hp' & _ & Hk). rewrite Hp in Hp'. injection Hp' as <-.
  specialize (Hk k Hm).
  destruct (il_chain _ _ HI _ _ Hi Hl) as (d & Hd & Ei & Hch).
  rewrite <- Hk in Ei, Hch.
  exists d, e. rewrite <- Ei. repeat split; auto.
Qed.

(** ** lookup *)
Definition lookup_post (l : list entry) (k : Key) (s : nat) : Prop :=
  exists e, nth_error l s = Some e /\
   ((isLive e = true /\ exists p, e_pay e = Val p /\ matches k p = true /\ In p (contents_l l)) \/
    (isLive e = false /\ forall p, In p (contents_l l) -> matches k p = false)).

Definition not_stop (l : list entry) cp k d : Prop :=
  exists e, nth_error l (slotn cp (computeHash hashf k) d) = Some e /\ isFree e = false /\
    (isLive e = true -> e_hash e = computeHash hashf k ->
       forall p, e_pay e = Val p -> matches k p = false).

Lemma lookup_loop_ok l cp k :
  inv_l l cp ->
  forall fuel d,
  (fuel + d = N.to_nat cp)%nat ->
  (forall d', (d' < d)%nat -> not_stop l cp k d') ->
  (exists d0 e, (d <= d0 < N.to_nat cp)%nat /\
     nth_error l (slotn cp (computeHash hashf k) d0) = Some e /\ isFree e = true) ->
  exists s,
    lookup_loop matches c fuel l cp k (computeHash hashf k)
      ((computeHash hashf k + N.of_nat d) mod 2 ^ 32) = Ok s /\ lookup_post l k s.
Proof.
  intros HI. set (h := computeHash hashf k).
  assert (Hh : h < 2 ^ 32) by apply computeHash_live.
  induction fuel as [|f IH]; intros d Hf Hpre (d0 & e0 & Hd0 & He0 & Hfree0).
  { lia. }
  cbn [lookup_loop].
  rewrite (probe_slotn cp h d (il_cap _ _ HI) Hh), next_hash.
  destruct (slot_exists l cp h d HI) as (e & He).
  rewrite (slot_get_ok _ _ _ He). cbn [bind].
  assert (Hcont : not_stop l cp k d ->
    exists s, lookup_loop matches c f l cp k h ((h + N.of_nat (S d)) mod 2 ^ 32) = Ok s /\
              lookup_post l k s).
  { intros Hns. apply IH.
    - lia.
    - intros d' Hd'. destruct (Nat.eq_dec d' d) as [->|]; [exact Hns|apply Hpre; lia].
    - exists d0, e0. repeat split; auto; try lia.
      destruct (Nat.eq_dec d d0) as [->|]; [|lia].
      destruct Hns as (e' & He' & Hf' & _). fold h in He'. congruence. }
  destruct (entry_cases e) as [(F & R & L)|[(F & R & L)|(F & R & L)]]; rewrite F.
  - exists (slotn cp h d). split; [reflexivity|]. exists e. split; [exact He|]. right.
    split; [exact L|]. intros p Hp. destruct (matches k p) eqn:Em; [exfalso|reflexivity].
    destruct (match_pos _ _ _ _ HI Hp Em) as (d1 & e1 & Hd1 & He1 & L1 & P1 & H1 & C1).
    fold h in He1, H1, C1.
    destruct (Nat.lt_trichotomy d1 d) as [Hlt|[->|Hgt]].
    + destruct (Hpre _ Hlt) as (e' & He' & _ & Hn). fold h in He', Hn.
      rewrite He1 in He'. injection He' as <-. rewrite (Hn L1 H1 p P1) in Em. discriminate.
    + congruence.
    + destruct (C1 _ Hgt) as (e' & He' & Hf'). congruence.
  - rewrite L. cbn [andb]. apply Hcont. exists e. fold h. repeat split; auto.
    rewrite L; discriminate.
  - rewrite L. cbn [andb]. unfold sameHash.
    destruct (N.eqb_spec (e_hash e) h) as [Eh|Eh].
    + pose proof (il_entry _ _ HI _ _ He) as Hok. unfold entry_ok in Hok. rewrite L in Hok.
      destruct Hok as (p & Hp & _ & _).
      rewrite (payload_live _ _ L Hp). cbn [bind].
      destruct (matches k p) eqn:Em.
      * exists (slotn cp h d). split; [reflexivity|]. exists e. split; [exact He|]. left.
        split; [exact L|]. exists p. repeat split; auto.
        apply in_contents; [apply (il_entry _ _ HI)|]. eauto.
      * apply Hcont. exists e. fold h. repeat split; auto. intros _ _ p' Hp'. congruence.
    + apply Hcont. exists e. fold h. repeat split; auto. intros _ E. congruence.
Qed.

Lemma lookup_loop_top l cp k :
  inv_l l cp -> (nonfree l < length l)%nat ->
  exists s, lookup_loop matches c (N.to_nat cp) l cp k (computeHash hashf k) (computeHash hashf k) = Ok s
            /\ lookup_post l k s.
Proof.
  intros HI Hn.
  destruct (exists_free l cp (computeHash hashf k) HI Hn) as (d & e & Hd & He & Hf).
  destruct (lookup_loop_ok l cp k HI (N.to_nat cp) 0) as (s & Hs & Hp).
  - lia.
  - intros d' Hd'; lia.
  - exists d, e. repeat split; auto. lia.
  - exists s. split; [|exact Hp]. rewrite <- Hs. f_equal.
    rewrite N.add_0_r, N.mod_small; [reflexivity|apply computeHash_live].
Qed.

(** ** lookupForAdd *)

(** A slot where a payload with hash [h] may be put: dead, behind non-free slots. *)
Definition insert_pos (l : list entry) (cp h : N) (s : nat) : Prop :=
  (exists e, nth_error l s = Some e /\ isLive e = false) /\ chain l cp s h.

Lemma lookupForAdd_loop_ok l cp k :
  inv_l l cp ->
  forall fuel d fr,
  (fuel + d = N.to_nat cp)%nat ->
  (forall d', (d' < d)%nat -> not_stop l cp k d') ->
  (forall s', fr = Some s' -> insert_pos l cp (computeHash hashf k) s' /\
       exists e, nth_error l s' = Some e /\ removed e = true) ->
  (exists d0 e, (d <= d0 < N.to_nat cp)%nat /\
     nth_error l (slotn cp (computeHash hashf k) d0) = Some e /\ isFree e = true) ->
  exists s fr',
    lookupForAdd_loop matches c fuel l cp k (computeHash hashf k)
      ((computeHash hashf k + N.of_nat d) mod 2 ^ 32) fr = Ok (s, fr') /\
    lookup_post l k s /\
    (forall s', fr' = Some s' -> insert_pos l cp (computeHash hashf k) s' /\
       exists e, nth_error l s' = Some e /\ removed e = true) /\
    ((exists e, nth_error l s = Some e /\ isLive e = false) -> insert_pos l cp (computeHash hashf k) s).
Proof.
  intros HI. set (h := computeHash hashf k).
  assert (Hh : h < 2 ^ 32) by apply computeHash_live.
  induction fuel as [|f IH]; intros d fr Hf Hpre Hfr (d0 & e0 & Hd0 & He0 & Hfree0).
  { lia. }
  cbn [lookupForAdd_loop].
  rewrite (probe_slotn cp h d (il_cap _ _ HI) Hh), next_hash.
  destruct (slot_exists l cp h d HI) as (e & He).
  rewrite (slot_get_ok _ _ _ He). cbn [bind].
  assert (Hchain : chain l cp (slotn cp h d) h).
  { exists d. repeat split; [lia|]. intros d' Hd'.
    destruct (Hpre _ Hd') as (e' & He' & Hf' & _). eauto. }
  assert (Hcont : not_stop l cp k d ->
    forall fr1, (forall s', fr1 = Some s' -> insert_pos l cp h s' /\
       exists e, nth_error l s' = Some e /\ removed e = true) ->
    exists s fr', lookupForAdd_loop matches c f l cp k h ((h + N.of_nat (S d)) mod 2 ^ 32) fr1 = Ok (s, fr') /\
              lookup_post l k s /\
    (forall s', fr' = Some s' -> insert_pos l cp (computeHash hashf k) s' /\
       exists e, nth_error l s' = Some e /\ removed e = true) /\
    ((exists e, nth_error l s = Some e /\ isLive e = false) -> insert_pos l cp (computeHash hashf k) s)).
  { intros Hns fr1 Hfr1. apply IH; auto.
    - lia.
    - intros d' Hd'. destruct (Nat.eq_dec d' d) as [->|]; [exact Hns|apply Hpre; lia].
    - exists d0, e0. repeat split; auto; try lia.
      destruct (Nat.eq_dec d d0) as [->|]; [|lia].
      destruct Hns as (e' & He' & Hf' & _). fold h in He'. congruence. }
  destruct (entry_cases e) as [(F & R & L)|[(F & R & L)|(F & R & L)]]; rewrite F, ?R.
  - exists (slotn cp h d), fr. split; [reflexivity|]. split; [|split; [exact Hfr|]].
    2:{ intros _. split; [eauto|exact Hchain]. }
    exists e. split; [exact He|]. right.
    split; [exact L|]. intros p Hp. destruct (matches k p) eqn:Em; [exfalso|reflexivity].
    destruct (match_pos _ _ _ _ HI Hp Em) as (d1 & e1 & Hd1 & He1 & L1 & P1 & H1 & C1).
    fold h in He1, H1, C1.
    destruct (Nat.lt_trichotomy d1 d) as [Hlt|[->|Hgt]].
    + destruct (Hpre _ Hlt) as (e' & He' & _ & Hn). fold h in He', Hn.
      rewrite He1 in He'. injection He' as <-. rewrite (Hn L1 H1 p P1) in Em. discriminate.
    + congruence.
    + destruct (C1 _ Hgt) as (e' & He' & Hf'). congruence.
  - apply Hcont.
    + exists e. fold h. repeat split; auto. rewrite L; discriminate.
    + destruct fr as [s0|]; [exact Hfr|].
      intros s' E. injection E as <-. split; [split; [eauto|exact Hchain]|eauto].
  - unfold sameHash.
    destruct (N.eqb_spec (e_hash e) h) as [Eh|Eh].
    + pose proof (il_entry _ _ HI _ _ He) as Hok. unfold entry_ok in Hok. rewrite L in Hok.
      destruct Hok as (p & Hp & _ & _).
      rewrite (payload_live _ _ L Hp). cbn [bind].
      destruct (matches k p) eqn:Em.
      * exists (slotn cp h d), fr. split; [reflexivity|]. split; [|split; [exact Hfr|]].
        2:{ intros (e' & He' & L'). congruence. }
        exists e. split; [exact He|]. left.
        split; [exact L|]. exists p. repeat split; auto.
        apply in_contents; [apply (il_entry _ _ HI)|]. eauto.
      * apply Hcont; auto. exists e. fold h. repeat split; auto. intros _ _ p' Hp'. congruence.
    + apply Hcont; auto. exists e. fold h. repeat split; auto. intros _ E. congruence.
Qed.

(** ** insertUnique *)
Lemma insertUnique_loop_ok l cp h :
  inv_l l cp -> h < 2 ^ 32 ->
  forall fuel d,
  (fuel + d = N.to_nat cp)%nat ->
  (forall d', (d' < d)%nat -> exists e, nth_error l (slotn cp h d') = Some e /\ isFree e = false) ->
  (exists d0 e, (d <= d0 < N.to_nat cp)%nat /\
     nth_error l (slotn cp h d0) = Some e /\ isFree e = true) ->
  exists s, insertUnique_loop fuel l cp ((h + N.of_nat d) mod 2 ^ 32) = Ok s /\ insert_pos l cp h s.
Proof.
  intros HI Hh.
  induction fuel as [|f IH]; intros d Hf Hpre (d0 & e0 & Hd0 & He0 & Hfree0).
  { lia. }
  cbn [insertUnique_loop].
  rewrite (probe_slotn cp h d (il_cap _ _ HI) Hh), next_hash.
  destruct (slot_exists l cp h d HI) as (e & He).
  rewrite (slot_get_ok _ _ _ He). cbn [bind].
  assert (Hchain : chain l cp (slotn cp h d) h).
  { exists d. repeat split; [lia|exact Hpre]. }
  destruct (entry_cases e) as [(F & R & L)|[(F & R & L)|(F & R & L)]]; rewrite F, ?R; cbn [orb].
  1,2: exists (slotn cp h d); split; [reflexivity|split; [eauto|exact Hchain]].
  apply IH.
  - lia.
  - intros d' Hd'. destruct (Nat.eq_dec d' d) as [->|]; [eauto|apply Hpre; lia].
  - exists d0, e0. repeat split; auto; try lia.
    destruct (Nat.eq_dec d d0) as [->|]; [congruence|lia].
Qed.

Lemma insertUnique_ok l cp h :
  inv_l l cp -> h < 2 ^ 32 -> (nonfree l < length l)%nat ->
  exists s, insertUnique c l cp h = Ok s /\ insert_pos l cp h s.
Proof.
  intros HI Hh Hn. unfold insertUnique. rewrite probulator_ok by apply (il_cap _ _ HI). cbn [bind].
  destruct (exists_free l cp h HI Hn) as (d & e & Hd & He & Hf).
  destruct (insertUnique_loop_ok l cp h HI Hh (N.to_nat cp) 0) as (s & Hs & Hp).
  - lia.
  - intros d' Hd'; lia.
  - exists d, e. repeat split; auto. lia.
  - exists s. split; [|exact Hp]. rewrite <- Hs. f_equal.
    now rewrite N.add_0_r, N.mod_small.
Qed.
(** ** Updating one slot *)
Lemma all_entries (P : entry -> Prop) l :
  (forall i e, nth_error l i = Some e -> P e) <-> Forall P l.
Proof.
  rewrite Forall_forall. split.
  - intros H e He. apply In_nth_error in He as [i Hi]. eauto.
  - intros H i e Hi. apply H. eapply nth_error_In; eassumption.
Qed.

Lemma contents_app l1 l2 : contents_l (l1 ++ l2) = contents_l l1 ++ contents_l l2.
Proof. apply flat_map_app. Qed.
Lemma contents_cons e l : contents_l (e :: l) = pay_of e ++ contents_l l.
Proof. reflexivity. Qed.

Lemma count_split l : Forall entry_ok l -> nonfree l = (length (contents_l l) + nremoved l)%nat.
Proof.
  unfold nonfree, nremoved. induction 1 as [|e l He _ IH]; [reflexivity|].
  rewrite contents_cons, app_length. unfold pay_of. cbn [filter].
  destruct (entry_cases e) as [(F & R & L)|[(F & R & L)|(F & R & L)]]; rewrite F, R, L; cbn [negb length].
  - cbn. lia.
  - cbn. lia.
  - unfold entry_ok in He. rewrite L in He. destruct He as (p & -> & _). cbn. lia.
Qed.

Lemma upd_at {A} (l1 l2 : list A) y i x : length l1 = i ->
  upd (l1 ++ y :: l2) i x = l1 ++ x :: l2.
Proof. intros <-. induction l1 as [|a l1 IH]; cbn; [reflexivity|now rewrite IH]. Qed.

Lemma upd_twice {A} (l : list A) i x y : upd (upd l i x) i y = upd l i y.
Proof. revert i; induction l as [|a l IH]; intros [|i]; cbn; auto. now rewrite IH. Qed.

Lemma chain_mono l l' cp i h :
  (forall j e, nth_error l j = Some e -> isFree e = false ->
     exists e', nth_error l' j = Some e' /\ isFree e' = false) ->
  chain l cp i h -> chain l' cp i h.
Proof.
  intros Hm (d & Hd & E & Hc). exists d. repeat split; auto.
  intros d' Hd'. destruct (Hc _ Hd') as (e & He & Hf). eauto.
Qed.

Lemma upd_nonfree_mono (l : list entry) s e0 :
  isFree e0 = false ->
  forall j e, nth_error l j = Some e -> isFree e = false ->
     exists e', nth_error (upd l s e0) j = Some e' /\ isFree e' = false.
Proof.
  intros H0 j e He Hf. rewrite nth_error_upd.
  destruct ((s =? j)%nat && (s <? length l)%nat); eauto.
Qed.

(** Replacing slot [s] by a live or removed entry keeps the table structure. *)
Lemma inv_l_upd l cp s e0 :
  inv_l l cp -> isFree e0 = false -> entry_ok e0 ->
  (isLive e0 = true -> chain l cp s (e_hash e0)) ->
  inv_l (upd l s e0) cp.
Proof.
  intros HI Hf Hok Hc. constructor.
  - apply (il_cap _ _ HI).
  - rewrite upd_length. apply (il_len _ _ HI).
  - intros i e. rewrite nth_error_upd.
    destruct ((s =? i)%nat && (s <? length l)%nat); [intros E; injection E as <-; exact Hok|].
    apply (il_entry _ _ HI).
  - intros i e. rewrite nth_error_upd.
    destruct (Nat.eqb_spec s i) as [->|]; destruct (Nat.ltb_spec i (length l)) as [Hlt|Hge]; cbn [andb].
    + intros E; injection E as <-. intros L. eapply chain_mono; [|apply Hc, L].
      now apply upd_nonfree_mono.
    + intros E L. exfalso. assert (i < length l)%nat by (apply nth_error_Some; congruence). lia.
    + intros E L. destruct (Nat.ltb_spec s (length l)); cbn [andb] in E;
      (eapply chain_mono; [now apply upd_nonfree_mono|]; eapply (il_chain _ _ HI); eauto).
    + intros E L. destruct (Nat.ltb_spec s (length l)); cbn [andb] in E;
      (eapply chain_mono; [now apply upd_nonfree_mono|]; eapply (il_chain _ _ HI); eauto).
Qed.

Lemma pay_dead e : isLive e = false -> pay_of e = [].
Proof. unfold pay_of. now intros ->. Qed.
Lemma pay_live e p : isLive e = true -> e_pay e = Val p -> pay_of e = [p].
Proof. unfold pay_of. now intros -> ->. Qed.

Definition b2n (b : bool) : nat := if b then 1 else 0.

Lemma nremoved_upd l s e e0 : nth_error l s = Some e ->
  (nremoved (upd l s e0) + b2n (removed e) = nremoved l + b2n (removed e0))%nat.
Proof.
  intros He. destruct (upd_split l s e0 e He) as (l1 & l2 & -> & Hl & ->).
  unfold nremoved. rewrite !filter_app, !app_length. cbn [filter].
  destruct (removed e), (removed e0); cbn [length b2n]; lia.
Qed.

Lemma contents_upd l s e e0 : nth_error l s = Some e ->
  exists A B, contents_l l = A ++ pay_of e ++ B /\ contents_l (upd l s e0) = A ++ pay_of e0 ++ B.
Proof.
  intros He. destruct (upd_split l s e0 e He) as (l1 & l2 & -> & Hl & ->).
  exists (contents_l l1), (contents_l l2). now rewrite !contents_app, !contents_cons.
Qed.

(** Storing a payload in an insertion slot. *)
Lemma fill_ok l cp h s p e :
  inv_l l cp -> insert_pos l cp h s -> 1 < h < 2 ^ 32 ->
  (forall k, matches k p = true -> computeHash hashf k = h) ->
  nth_error l s = Some e ->
  let l' := upd l s (Entry h (Val p)) in
  inv_l l' cp /\ Permutation (contents_l l') (p :: contents_l l) /\
  (nremoved l' + b2n (removed e) = nremoved l)%nat.
Proof.
  intros HI [(e' & He' & Hd) Hc] Hh Hk He. rewrite He in He'. injection He' as <-.
  assert (L0 : isLive (Entry h (Val p)) = true) by (unfold isLive, kRemovedHash; cbn [e_hash]; lia).
  assert (F0 : isFree (Entry h (Val p)) = false) by (unfold isFree, kFreeHash; cbn [e_hash]; lia).
  assert (R0 : removed (Entry h (Val p)) = false) by (unfold removed, kRemovedHash; cbn [e_hash]; lia).
  cbn zeta. split; [|split].
  - apply inv_l_upd; auto. unfold entry_ok. rewrite L0. exists p. cbn [e_hash e_pay]. intuition.
  - destruct (contents_upd l s e (Entry h (Val p)) He) as (A & B & -> & ->).
    rewrite (pay_dead _ Hd), (pay_live _ p L0 eq_refl). cbn [app].
    symmetry. apply Permutation_middle.
  - pose proof (nremoved_upd l s e (Entry h (Val p)) He) as H. rewrite R0 in H. cbn [b2n] in H. lia.
Qed.

(** Removing a live entry. *)
Lemma kill_ok l cp s e p :
  inv_l l cp -> nth_error l s = Some e -> isLive e = true -> e_pay e = Val p ->
  let l' := upd l s (Entry kRemovedHash Raw) in
  inv_l l' cp /\ Permutation (contents_l l) (p :: contents_l l') /\
  nremoved l' = S (nremoved l).
Proof.
  intros HI He L Hp. cbn zeta. split; [|split].
  - apply inv_l_upd; auto; [reflexivity|discriminate].
  - destruct (contents_upd l s e (Entry kRemovedHash Raw) He) as (A & B & -> & ->).
    rewrite (pay_live _ p L Hp). cbn. symmetry. apply Permutation_middle.
  - pose proof (nremoved_upd l s e (Entry kRemovedHash Raw) He) as H. cbn [removed] in H.
    destruct (entry_cases e) as [(F & R & L')|[(F & R & L')|(F & R & L')]]; try congruence.
    rewrite R in H. cbn in H. lia.
Qed.

(** Overwriting the payload of a live entry. *)
Lemma assign_ok l cp s e p p' :
  inv_l l cp -> nth_error l s = Some e -> isLive e = true -> e_pay e = Val p ->
  (forall k, matches k p' = true -> computeHash hashf k = e_hash e) ->
  let l' := upd l s (Entry (e_hash e) (Val p')) in
  inv_l l' cp /\
  (exists A B, contents_l l = A ++ p :: B /\ contents_l l' = A ++ p' :: B) /\
  nremoved l' = nremoved l.
Proof.
  intros HI He L Hp Hk. cbn zeta.
  set (e0 := Entry (e_hash e) (Val p')).
  assert (L0 : isLive e0 = true) by exact L.
  pose proof (il_entry _ _ HI _ _ He) as Hok. unfold entry_ok in Hok. rewrite L in Hok.
  destruct Hok as (q & _ & Hlt & _).
  destruct (entry_cases e) as [(F & R & L')|[(F & R & L')|(F & R & L')]]; try congruence.
  split; [|split].
  - apply inv_l_upd; auto.
    + unfold entry_ok. rewrite L0. exists p'. unfold e0; cbn [e_hash e_pay]. intuition.
    + intros _. unfold e0; cbn [e_hash]. eapply (il_chain _ _ HI); eauto.
  - destruct (contents_upd l s e e0 He) as (A & B & -> & ->).
    exists A, B. rewrite (pay_live _ p L Hp), (pay_live _ p' L0 eq_refl). auto.
  - pose proof (nremoved_upd l s e e0 He) as H.
    replace (removed e0) with (removed e) in H by reflexivity. lia.
Qed.

(** ** Fresh tables and rehashing *)
Definition fresh (cp : N) : list entry := repeat (Entry kFreeHash Raw) (N.to_nat cp).

Lemma fresh_nth cp i e : nth_error (fresh cp) i = Some e -> e = Entry kFreeHash Raw.
Proof. intros H. apply nth_error_In in H. now apply repeat_spec in H. Qed.

Lemma fresh_inv cp : cap_ok cp -> inv_l (fresh cp) cp.
Proof.
  intros Hc. constructor; auto.
  - apply repeat_length.
  - intros i e H. apply fresh_nth in H as ->. reflexivity.
  - intros i e H L. apply fresh_nth in H as ->. discriminate.
Qed.
Lemma contents_repeat n : contents_l (repeat (Entry kFreeHash Raw) n) = [].
Proof. induction n; [reflexivity|]. cbn [repeat]. rewrite contents_cons, IHn. reflexivity. Qed.
Lemma nremoved_repeat n : nremoved (repeat (Entry kFreeHash Raw) n) = 0%nat.
Proof. induction n; [reflexivity|]. exact IHn. Qed.

Lemma nonfree_of l cp : inv_l l cp -> nonfree l = (length (contents_l l) + nremoved l)%nat.
Proof. intros HI. apply count_split, all_entries, (il_entry _ _ HI). Qed.

Lemma rehash_ok old : forall l cp,
  inv_l l cp -> Forall entry_ok old -> nremoved l = 0%nat ->
  (length (contents_l l) + length (contents_l old) < length l)%nat ->
  exists l' o, rehash c old l cp = Ok (l', o) /\ inv_l l' cp /\ nremoved l' = 0%nat /\
    Permutation (contents_l l') (contents_l l ++ contents_l old) /\ forallb is_raw o = true.
Proof.
  induction old as [|e old IH]; intros l cp HI Hok Hr Hlen.
  - exists l, []. cbn. rewrite app_nil_r. repeat split; auto; apply HI.
  - inversion Hok as [|? ? He Hok']; subst. cbn [rehash].
    rewrite contents_cons, app_length in Hlen.
    destruct (isLive e) eqn:L.
    + unfold entry_ok in He. rewrite L in He. destruct He as (p & Hp & Hlt & Hk).
      assert (Hh : 1 < e_hash e < 2 ^ 32) by (unfold isLive, kRemovedHash in L; lia).
      rewrite (pay_live _ _ L Hp) in Hlen. cbn [length] in Hlen.
      destruct (insertUnique_ok l cp (e_hash e) HI) as (s & Es & Hs); [lia| |].
      { rewrite (nonfree_of _ _ HI). lia. }
      rewrite Es. cbn [bind].
      destruct Hs as [(e1 & He1 & L1) Hch] eqn:EHs. clear EHs.
      rewrite (slot_get_ok _ _ _ He1). cbn [bind].
      unfold move_out. rewrite (payload_live _ _ L Hp). cbn [bind].
      pose proof (il_entry _ _ HI _ _ He1) as Hok1. unfold entry_ok in Hok1. rewrite L1 in Hok1.
      unfold construct, setHash. cbn [e_pay e_hash]. rewrite Hok1. cbn [bind].
      assert (Hslen : (s < length l)%nat) by (apply nth_error_Some; congruence).
      rewrite slot_set_ok by exact Hslen. cbn [bind].
      destruct (fill_ok l cp (e_hash e) s p e1 HI Hs Hh Hk He1) as (HI' & HP' & HR').
      set (l' := upd l s (Entry (e_hash e) (Val p))) in *.
      unfold destruct_. replace (isLive (Entry (e_hash e) Moved)) with (isLive e) by reflexivity.
      rewrite L. cbn [e_pay bind].
      destruct (IH l' cp HI' Hok') as (l2 & o & E2 & HI2 & HR2 & HP2 & Hraw).
      { lia. }
      { apply Permutation_length in HP' as HL. cbn [length] in HL.
        unfold l'. rewrite upd_length. fold l'. lia. }
      rewrite E2. cbn [bind]. eexists _, _. split; [reflexivity|].
      split; [exact HI2|]. split; [exact HR2|]. split; [|cbn; exact Hraw].
      rewrite HP2, contents_cons, (pay_live _ _ L Hp), HP'. cbn [app].
      apply Permutation_middle.
    + unfold destruct_. rewrite L. cbn [bind].
      rewrite (pay_dead _ L) in Hlen. cbn [length] in Hlen.
      destruct (IH l cp HI Hok' Hr) as (l2 & o & E2 & HI2 & HR2 & HP2 & Hraw); [lia|].
      rewrite E2. cbn [bind]. eexists _, _. split; [reflexivity|].
      split; [exact HI2|]. split; [exact HR2|]. split.
      * rewrite contents_cons, (pay_dead _ L). exact HP2.
      * cbn. unfold entry_ok in He. rewrite L in He. unfold is_raw at 1. now rewrite He.
Qed.

(** ** The table invariant *)
Definition uniq (S : list Payload) : Prop :=
  forall k, (length (filter (matches k) S) <= 1)%nat.

Record inv (t : table) (l : list entry) : Prop := {
  i_tbl : tbl t = Some l;
  i_l : inv_l l (cap t);
  i_uniq : uniq (contents_l l);
  i_nelem : nelem t = N.of_nat (length (contents_l l));
  i_ndel : ndel t = N.of_nat (nremoved l);
  i_load : nelem t + ndel t <= cap t / 2 + cap t / 4 + 1;
  i_minc : cap_ok (mincap t);
  i_min : mincap t <= cap t;
  i_dbg : debug c = true -> cap t <= kMaxCapacity c;
  i_m0 : mincap t = m0
}.

Lemma inv_contents t l : inv t l -> contents t = contents_l l.
Proof. intros H. unfold contents, entries. now rewrite (i_tbl _ _ H). Qed.

Lemma load_lt cp : cap_ok cp -> cp / 2 + cp / 4 + 1 < cp.
Proof.
  intros H. apply cap_ok_pos in H.
  pose proof (N.mul_div_le cp 2 ltac:(lia)). pose proof (N.mul_div_le cp 4 ltac:(lia)). lia.
Qed.

Lemma inv_nonfree t l : inv t l -> (nonfree l < length l)%nat.
Proof.
  intros H. rewrite (nonfree_of _ _ (i_l _ _ H)), (il_len _ _ (i_l _ _ H)).
  pose proof (load_lt _ (il_cap _ _ (i_l _ _ H))).
  pose proof (i_load _ _ H). pose proof (i_nelem _ _ H). pose proof (i_ndel _ _ H). lia.
Qed.

Lemma find_ok t l k : inv t l ->
  exists s, find hashf matches c t k = Ok s /\ lookup_post l k s.
Proof.
  intros H. unfold find. rewrite probulator_ok by apply (il_cap _ _ (i_l _ _ H)). cbn [bind].
  rewrite (i_tbl _ _ H). cbn [deref bind].
  apply lookup_loop_top; [apply H|]. now apply inv_nonfree in H.
Qed.

Lemma findForAdd_ok t l k : inv t l ->
  exists s, findForAdd hashf matches c t k = Ok (s, computeHash hashf k) /\ lookup_post l k s /\
    ((exists e, nth_error l s = Some e /\ isLive e = false) ->
      insert_pos l (cap t) (computeHash hashf k) s).
Proof.
  intros H. unfold findForAdd. rewrite probulator_ok by apply (il_cap _ _ (i_l _ _ H)). cbn [bind].
  rewrite (i_tbl _ _ H). cbn [deref bind]. pose proof (i_l _ _ H) as HI.
  set (h := computeHash hashf k).
  destruct (exists_free l (cap t) h HI (inv_nonfree _ _ H)) as (d & e & Hd & He & Hf).
  destruct (lookupForAdd_loop_ok l (cap t) k HI (N.to_nat (cap t)) 0 None) as
    (s & fr & Es & Hpost & Hfr & Hins).
  - lia.
  - intros d' Hd'; lia.
  - discriminate.
  - exists d, e. repeat split; auto. lia.
  - fold h in Es, Hfr, Hins.
    replace ((h + N.of_nat 0) mod 2 ^ 32) with h in Es
      by (cbn; rewrite N.add_0_r, N.mod_small; [reflexivity|apply computeHash_live]).
    rewrite Es. cbn [bind].
    destruct Hpost as (e' & He' & Hpost). rewrite (slot_get_ok _ _ _ He'). cbn [bind].
    assert (Hsame : lookup_post l k s) by (exists e'; auto).
    destruct fr as [s'|]; [|exists s; auto].
    destruct (isLive e') eqn:L; cbn [negb]; [exists s; auto|].
    destruct (Hfr s' eq_refl) as (Hpos & er & Her & Hrem).
    assert (Lr : isLive er = false)
      by (destruct (entry_cases er) as [(?&?&?)|[(?&?&?)|(?&?&?)]]; congruence).
    exists s'. split; [reflexivity|]. split; [|auto].
    exists er. split; [exact Her|]. right. split; [exact Lr|].
    destruct Hpost as [[? _]|[_ ?]]; [congruence|assumption].
Qed.

(** ** uniqueness of keys *)
Lemma filter_perm {A} (f : A -> bool) l l' : Permutation l l' -> Permutation (filter f l) (filter f l').
Proof.
  induction 1 as [|x l l' _ IH|x y l|l l' l'' _ IH1 _ IH2]; cbn.
  - constructor.
  - destruct (f x); [now constructor|exact IH].
  - destruct (f x), (f y); try reflexivity; constructor.
  - etransitivity; eassumption.
Qed.

Lemma uniq_perm S S' : Permutation S S' -> uniq S -> uniq S'.
Proof. intros HP HU k. rewrite <- (Permutation_length (filter_perm (matches k) _ _ HP)). apply HU. Qed.

Lemma filter_none {A} (f : A -> bool) l : (forall x, In x l -> f x = false) -> filter f l = [].
Proof.
  induction l as [|x l IH]; intros H; [reflexivity|]. cbn. rewrite (H x) by now left.
  apply IH. intros y Hy. apply H. now right.
Qed.

Lemma uniq_cons k p S : uniq S -> matches k p = true -> (forall q, In q S -> matches k q = false) ->
  uniq (p :: S).
Proof.
  intros HU Hm Hn k'. cbn. destruct (matches k' p) eqn:E; [|apply HU].
  cbn [length]. rewrite filter_none; [cbn; lia|].
  intros q Hq. destruct (Hpol k k' p Hm E) as [_ Heq]. rewrite <- Heq. now apply Hn.
Qed.

Lemma uniq_tail p S : uniq (p :: S) -> uniq S.
Proof. intros HU k. specialize (HU k). cbn in HU. destruct (matches k p); cbn in HU; lia. Qed.

(** In a collection with unique keys, the matching payload is the only one. *)
Lemma uniq_filter k p S : uniq (p :: S) -> matches k p = true ->
  forall q, In q S -> matches k q = false.
Proof.
  intros HU Hm q Hq. destruct (matches k q) eqn:E; [exfalso|reflexivity].
  specialize (HU k). cbn in HU. rewrite Hm in HU. cbn in HU.
  assert (In q (filter (matches k) S)) by (apply filter_In; auto).
  destruct (filter (matches k) S); [destruct H|cbn in HU; lia].
Qed.
Lemma filter_all {A} (f : A -> bool) l : (forall x, In x l -> f x = true) -> filter f l = l.
Proof.
  induction l as [|x l IH]; intros H; [reflexivity|]. cbn. rewrite (H x) by now left.
  f_equal. apply IH. intros y Hy. apply H. now right.
Qed.

(** ** changing capacity *)
Definition limit (t : table) : Prop :=
  (overloaded t = true /\ kMaxCapacity c < 2 * cap t) \/ nelem t = kMaxCapacity c.

Lemma changeCapacity_ok alloc t l ncp :
  inv t l -> cap_ok ncp -> mincap t <= ncp -> nelem t <= ncp / 2 + ncp / 4 ->
  (debug c = true /\ kMaxCapacity c < ncp /\ changeCapacity c alloc t ncp = Fault AssertFail) \/
  (alloc = false /\ aborts c = true /\ changeCapacity c alloc t ncp = Fault Abort) \/
  (alloc = false /\ aborts c = false /\ changeCapacity c alloc t ncp = Ok (t, false)) \/
  (alloc = true /\ exists t' l', changeCapacity c alloc t ncp = Ok (t', true) /\ inv t' l' /\
     cap t' = ncp /\ nelem t' = nelem t /\ ndel t' = 0 /\ mincap t' = mincap t /\
     Permutation (contents_l l') (contents_l l)).
Proof.
  intros H Hc Hmin Hn. unfold changeCapacity, createTable, assert_.
  destruct (debug c && negb (ncp <=? kMaxCapacity c)) eqn:Ed.
  - left. cbn. repeat split; auto; lia.
  - right. cbn [bind]. unfold am_malloc_table. destruct alloc.
    + right; right. split; [reflexivity|]. cbn [bind]. rewrite (i_tbl _ _ H). cbn [deref bind].
      pose proof (load_lt _ Hc).
      destruct (rehash_ok l (fresh ncp) ncp) as (l' & o & E & HI' & HR & HP & Hraw).
      * now apply fresh_inv.
      * apply all_entries, (i_l _ _ H).
      * apply nremoved_repeat.
      * unfold fresh at 1. rewrite contents_repeat. unfold fresh. rewrite repeat_length.
        pose proof (i_nelem _ _ H). cbn [length]. lia.
      * unfold fresh in E. rewrite E. cbn [bind]. unfold am_free. rewrite Hraw. cbn [bind].
        unfold fresh in HP. rewrite contents_repeat in HP. cbn [app] in HP.
        eexists _, l'. split; [reflexivity|]. cbn [cap nelem ndel mincap].
        split; [|repeat split; auto; apply HI'].
        constructor; cbn [cap nelem ndel mincap tbl]; auto.
        -- eapply uniq_perm; [symmetry; exact HP|apply H].
        -- rewrite (Permutation_length HP). apply H.
        -- rewrite HR. reflexivity.
        -- lia.
        -- apply H.
        -- intros Hd. rewrite Hd in Ed. cbn [andb] in Ed. lia.
        -- apply H.
    + destruct (aborts c); [left|right; left]; auto.
Qed.

Lemma checkDensity_ok alloc t l :
  inv t l -> 16 <= kMaxCapacity c ->
  (debug c = true /\ limit t /\ checkDensity c alloc t = Fault AssertFail) \/
  ((alloc = false \/ limit t) /\ aborts c = true /\ checkDensity c alloc t = Fault Abort) \/
  ((alloc = false \/ limit t) /\ aborts c = false /\ checkDensity c alloc t = Ok (t, false)) \/
  (overloaded t = false /\ checkDensity c alloc t = Ok (t, true)) \/
  (exists t' l', checkDensity c alloc t = Ok (t', true) /\ inv t' l' /\ cap t' <> cap t /\
     nelem t' = nelem t /\ ndel t' = 0 /\ mincap t' = mincap t /\
     nelem t' <= cap t' / 2 + cap t' / 4 /\
     Permutation (contents_l l') (contents_l l)).
Proof.
  intros H Hk. unfold checkDensity.
  pose proof (il_cap _ _ (i_l _ _ H)) as Hc. pose proof (cap_ok_pos _ Hc) as Hb.
  pose proof (load_lt _ Hc) as Hload. pose proof (i_load _ _ H) as Hl.
  assert (Hsum : uadd 32 (nelem t) (ndel t) = nelem t + ndel t).
  { unfold uadd. apply N.mod_small. change (2 ^ 32) with 4294967296. change (2 ^ 31) with 2147483648 in Hb. lia. }
  assert (Hthr : uadd 32 (cap t / 2) (cap t / 4) = cap t / 2 + cap t / 4).
  { unfold uadd. apply N.mod_small. change (2 ^ 32) with 4294967296. change (2 ^ 31) with 2147483648 in Hb. lia. }
  destruct (underloaded t) eqn:Eu.
  - (* shrink *)
    unfold underloaded in Eu. rewrite Hsum in Eu. unfold shrink. rewrite N.shiftr_div_pow2. change (2 ^ 1) with 2.
    assert (Hov : overloaded t = false).
    { unfold overloaded. rewrite Hsum, Hthr. lia. }
    destruct (N.ltb_spec (cap t / 2) (mincap t)) as [Hm|Hm].
    + right; right; right; left. auto.
    + assert (Hhalf : nelem t <= cap t / 2 / 2 + cap t / 2 / 4).
      { rewrite N.div_div by lia. change (2 * 2) with 4. lia. }
      assert (Hc' : cap_ok (cap t / 2)).
      { destruct Hc as (j & Ej & Hj). exists (j - 1).
        assert (E2 : cap t / 2 = 2 ^ (j - 1)).
        { rewrite Ej. replace j with (j - 1 + 1) at 1 by lia. rewrite N.pow_add_r.
          change (2 ^ 1) with 2. now rewrite N.div_mul by lia. }
        split; [exact E2|].
        pose proof (cap_ok_pos _ (i_minc _ _ H)) as [Hm16 _].
        assert (2 ^ 4 <= 2 ^ (j - 1)) by (change (2 ^ 4) with 16; lia).
        apply N.pow_le_mono_r_iff in H0; lia. }
      destruct (changeCapacity_ok alloc t l (cap t / 2) H Hc' Hm) as
        [(? & Hbig & E)|[(? & ? & E)|[(? & ? & E)|(? & t' & l' & E & HI' & E1 & E2 & E3 & E4 & HP)]]].
      * exact Hhalf.
      * exfalso. pose proof (i_dbg _ _ H ltac:(assumption)).
        pose proof (N.mul_div_le (cap t) 2 ltac:(lia)). lia.
      * right; left. auto.
      * right; right; left. auto.
      * right; right; right; right. exists t', l'. rewrite E1, E2. repeat (split; auto).
        pose proof (N.div_lt (cap t) 2). lia.
  - destruct (overloaded t) eqn:Eo.
    + (* grow *)
      unfold grow.
      assert (Hlimit : kMaxCapacity c < 2 * cap t -> limit t) by (intros; left; auto).
      assert (HkM : kMaxCapacity c < 2 ^ 31).
      { unfold kMaxCapacity. eapply N.le_lt_trans; [apply N.div_le_upper_bound with (q := 2147483647)|reflexivity].
        - intros E. unfold kMaxCapacity in Hk. rewrite E in Hk. cbn in Hk. lia.
        - assert (sizeof_entry c <> 0) by (intros E; unfold kMaxCapacity in Hk; rewrite E in Hk; cbn in Hk; lia).
          nia. }
      destruct (N.leb_spec (kMaxCapacity c) (cap t)) as [Hge|Hlt].
      { unfold reportAllocationOverflow. destruct (aborts c); cbn [bind].
        - right; left. repeat split; auto. right. apply Hlimit. lia.
        - right; right; left. repeat split; auto. right. apply Hlimit. lia. }
      assert (Esh : ushl 32 (cap t) 1 = 2 * cap t).
      { unfold ushl. rewrite N.shiftl_mul_pow2. change (2 ^ 1) with 2. rewrite N.mod_small; [lia|].
        change (2 ^ 32) with 4294967296. change (2 ^ 31) with 2147483648 in HkM. lia. }
      rewrite Esh.
      assert (Hc' : cap_ok (2 * cap t)).
      { destruct Hc as (j & Ej & Hj). exists (j + 1). split.
        - rewrite Ej, N.add_1_r, N.pow_succ_r'. reflexivity.
        - assert (j <> 31); [|lia]. intros ->. rewrite Ej in Hlt. lia. }
      assert (Hhalf : nelem t <= 2 * cap t / 2 + 2 * cap t / 4).
      { rewrite N.mul_comm, N.div_mul by lia. lia. }
      destruct (changeCapacity_ok alloc t l (2 * cap t) H Hc') as
        [(? & Hbig & E)|[(? & ? & E)|[(? & ? & E)|(? & t' & l' & E & HI' & E1 & E2 & E3 & E4 & HP)]]].
      * pose proof (i_min _ _ H). lia.
      * exact Hhalf.
      * left. auto.
      * right; left. auto.
      * right; right; left. auto.
      * right; right; right; right. exists t', l'. rewrite E1, E2. repeat (split; auto). lia.
    + right; right; right; left. auto.
Qed.

(** ** add *)
Lemma uadd_small a b : a + b < 2 ^ 32 -> uadd 32 a b = a + b.
Proof. apply N.mod_small. Qed.

Lemma inv_small t l : inv t l -> nelem t + ndel t < 2 ^ 31 /\ cap t <= 2 ^ 31.
Proof.
  intros H. pose proof (il_cap _ _ (i_l _ _ H)) as Hc. pose proof (cap_ok_pos _ Hc).
  pose proof (load_lt _ Hc). pose proof (i_load _ _ H). lia.
Qed.

Lemma nth_lt {A} (l : list A) i x : nth_error l i = Some x -> (i < length l)%nat.
Proof. intros H. apply nth_error_Some. congruence. Qed.

(** What internalAdd leaves: a table [t1] with entries [l1] whose slot [s1] awaits the payload. *)
Definition added (t : table) (l : list entry) (h : N) (t1 : table) (l1 : list entry) (s1 : nat) : Prop :=
  inv_l l1 (cap t1) /\ insert_pos l1 (cap t1) h s1 /\ Permutation (contents_l l1) (contents_l l) /\
  tbl t1 = Some (upd l1 s1 (Entry h Raw)) /\ nelem t1 = nelem t + 1 /\
  (exists e1, nth_error l1 s1 = Some e1 /\ ndel t1 + N.of_nat (b2n (removed e1)) = N.of_nat (nremoved l1)) /\
  nelem t1 + ndel t1 <= cap t1 / 2 + cap t1 / 4 + 1 /\
  mincap t1 = mincap t /\ mincap t <= cap t1 /\ (debug c = true -> cap t1 <= kMaxCapacity c) /\
  nelem t1 + ndel t1 <= nelem t + ndel t + 1.

Lemma internalAdd_ok alloc t l s h :
  inv t l -> 16 <= kMaxCapacity c -> insert_pos l (cap t) h s -> 1 < h < 2 ^ 32 ->
  (debug c = true /\ limit t /\ internalAdd c alloc t (s, h) = Fault AssertFail) \/
  ((alloc = false \/ limit t) /\ aborts c = true /\ internalAdd c alloc t (s, h) = Fault Abort) \/
  ((alloc = false \/ limit t) /\ aborts c = false /\ internalAdd c alloc t (s, h) = Ok (t, (s, h), false)) \/
  (exists t1 l1 s1, internalAdd c alloc t (s, h) = Ok (t1, (s1, h), true) /\ added t l h t1 l1 s1).
Proof.
  intros H Hk Hpos Hh. pose proof Hpos as [(e & He & L) Hch].
  pose proof (i_l _ _ H) as HI. pose proof (inv_small _ _ H) as [Hsm Hcs].
  change (2 ^ 31) with 2147483648 in Hsm.
  pose proof (il_entry _ _ HI _ _ He) as Hok. unfold entry_ok in Hok. rewrite L in Hok.
  unfold internalAdd, found. cbn [fst snd]. rewrite (i_tbl _ _ H). cbn [deref bind].
  rewrite (slot_get_ok _ _ _ He). cbn [bind]. rewrite L. rewrite assert_true by reflexivity.
  pose proof (nth_lt _ _ _ He) as Hlt.
  destruct (removed e) eqn:R.
  - (* reuse of a removed slot *)
    right; right; right. cbn [bind fst snd tbl deref cap nelem ndel mincap].
    rewrite (slot_get_ok _ _ _ He). cbn [bind]. rewrite slot_set_ok by exact Hlt. cbn [bind].
    eexists _, l, s. split; [reflexivity|].
    assert (Hrem : (1 <= nremoved l)%nat).
    { unfold nremoved. assert (In e (filter removed l)).
      { apply filter_In. split; [eapply nth_error_In; eassumption|exact R]. }
      destruct (filter removed l); [destruct H0|cbn; lia]. }
    pose proof (i_ndel _ _ H) as Hnd.
    assert (Es : usub 32 (ndel t) 1 = ndel t - 1).
    { apply usub1; [lia|]. change (2 ^ 32) with 4294967296. lia. }
    rewrite Es. rewrite uadd_small by (change (2 ^ 32) with 4294967296; lia).
    pose proof (i_load _ _ H).
    unfold added. cbn [cap nelem ndel mincap tbl].
    repeat match goal with |- _ /\ _ => split end; auto; try lia.
    + unfold setHash. now rewrite Hok.
    + exists e. split; [exact He|]. rewrite R. cbn [b2n]. lia.
    + apply H.
    + apply H.
  - destruct (N.eqb_spec (nelem t) (kMaxCapacity c)) as [Emax|Emax].
    { unfold reportAllocationOverflow. destruct (aborts c); cbn [bind]; [right; left|right; right; left];
      (split; [right; right; exact Emax|auto]). }
    destruct (checkDensity_ok alloc t l H Hk) as
      [(?&?&E)|[(?&?&E)|[(?&?&E)|[(Hov&E)|(t' & l' & E & HI' & Ecap & En & Ed & Emin & Hld & HP)]]]];
      rewrite E; cbn [bind negb].
    + left. auto.
    + right; left. auto.
    + right; right; left. auto.
    + (* same table *)
      right; right; right. rewrite N.eqb_refl. cbn [negb bind fst snd]. rewrite (i_tbl _ _ H). cbn [deref bind].
      rewrite (slot_get_ok _ _ _ He). cbn [bind]. rewrite slot_set_ok by exact Hlt. cbn [bind].
      eexists _, l, s. split; [reflexivity|].
      rewrite uadd_small by (change (2 ^ 32) with 4294967296; lia).
      assert (Hle : nelem t + ndel t <= cap t / 2 + cap t / 4).
      { unfold overloaded in Hov. rewrite !uadd_small in Hov; [lia| |].
        - change (2 ^ 32) with 4294967296. lia.
        - pose proof (load_lt _ (il_cap _ _ HI)). change (2 ^ 31) with 2147483648 in Hcs.
          change (2 ^ 32) with 4294967296. lia. }
      unfold added. cbn [cap nelem ndel mincap tbl].
      repeat match goal with |- _ /\ _ => split end; auto; try lia.
      * unfold setHash. now rewrite Hok.
      * exists e. split; [exact He|]. rewrite R. cbn [b2n]. rewrite (i_ndel _ _ H). lia.
      * apply H.
      * apply H.
    + (* resized *)
      right; right; right. rewrite (proj2 (N.eqb_neq _ _) Ecap). cbn [negb].
      rewrite (i_tbl _ _ HI'). cbn [deref bind].
      destruct (insertUnique_ok l' (cap t') h (i_l _ _ HI')) as (s1 & Es & Hpos1); [lia| |].
      { now apply inv_nonfree in HI'. }
      rewrite Es. cbn [bind fst snd]. rewrite (i_tbl _ _ HI'). cbn [deref bind].
      pose proof Hpos1 as [(e1 & He1 & L1) _].
      pose proof (il_entry _ _ (i_l _ _ HI') _ _ He1) as Hok1. unfold entry_ok in Hok1. rewrite L1 in Hok1.
      rewrite (slot_get_ok _ _ _ He1). cbn [bind].
      rewrite slot_set_ok by (eapply nth_lt; eassumption). cbn [bind].
      eexists _, l', s1. split; [reflexivity|].
      rewrite En. rewrite uadd_small by (change (2 ^ 32) with 4294967296; lia).
      assert (Hnr : nremoved l' = 0%nat) by (pose proof (i_ndel _ _ HI'); lia).
      assert (R1 : removed e1 = false).
      { destruct (removed e1) eqn:R1; [exfalso|reflexivity].
        assert (Hin : In e1 (filter removed l')).
        { apply filter_In. split; [eapply nth_error_In; eassumption|exact R1]. }
        unfold nremoved in Hnr. destruct (filter removed l'); [destruct Hin|cbn in Hnr; lia]. }
      unfold added. cbn [cap nelem ndel mincap tbl].
      repeat match goal with |- _ /\ _ => split end; auto; try lia.
      * apply HI'.
      * unfold setHash. now rewrite Hok1.
      * exists e1. split; [exact He1|]. rewrite R1, Ed, Hnr. reflexivity.
      * rewrite <- Emin. apply HI'.
      * apply HI'.
Qed.

(** Storing the payload into the prepared slot restores the invariant. *)
Definition put (t1 : table) (l1 : list entry) (s1 : nat) (h : N) (p : Payload) : table :=
  Table (cap t1) (nelem t1) (ndel t1) (Some (upd l1 s1 (Entry h (Val p)))) (mincap t1).

Lemma put_inv t l k p t1 l1 s1 :
  inv t l -> matches k p = true -> (forall q, In q (contents_l l) -> matches k q = false) ->
  added t l (computeHash hashf k) t1 l1 s1 ->
  inv (put t1 l1 s1 (computeHash hashf k) p) (upd l1 s1 (Entry (computeHash hashf k) (Val p))) /\
  Permutation (contents_l (upd l1 s1 (Entry (computeHash hashf k) (Val p)))) (p :: contents_l l).
Proof.
  intros H Hm Hnone (HI1 & Hpos & HP & Htbl & Hn & (e1 & He1 & Hd) & Hld & Hmin & Hmin2 & Hdbg & Htot).
  set (h := computeHash hashf k) in *.
  destruct (fill_ok l1 (cap t1) h s1 p e1 HI1 Hpos (computeHash_live k)) as (HI2 & HP2 & HR2); auto.
  { intros k' Hk'. destruct (Hpol k k' p Hm Hk') as [Eh _]. unfold h, computeHash. now rewrite Eh. }
  assert (HP3 : Permutation (contents_l (upd l1 s1 (Entry h (Val p)))) (p :: contents_l l)).
  { rewrite HP2. now constructor. }
  split; [|exact HP3]. constructor; unfold put; cbn [cap nelem ndel mincap tbl]; auto.
  - eapply uniq_perm; [symmetry; exact HP3|]. eapply uniq_cons; eauto. apply H.
  - rewrite (Permutation_length HP3). cbn [length]. rewrite Hn, (i_nelem _ _ H). lia.
  - lia.
  - rewrite Hmin. apply H.
  - rewrite Hmin. exact Hmin2.
  - rewrite Hmin. apply H.
Qed.

Lemma add_of_internal alloc t l s h p t1 l1 s1 :
  internalAdd c alloc t (s, h) = Ok (t1, (s1, h), true) -> added t l h t1 l1 s1 ->
  add c alloc t (s, h) p = Ok (put t1 l1 s1 h p, (s1, h), true).
Proof.
  intros E (HI1 & [(e & He & L) _] & HP & Htbl & _). unfold add. rewrite E. cbn [bind fst].
  rewrite Htbl. cbn [deref bind].
  assert (Hlt : (s1 < length l1)%nat) by (eapply nth_lt; eassumption).
  rewrite (slot_get_ok _ _ (Entry h Raw)) by now apply nth_error_upd_eq. cbn [bind construct e_pay e_hash].
  rewrite slot_set_ok by (rewrite upd_length; exact Hlt). cbn [bind]. rewrite upd_twice. reflexivity.
Qed.

Lemma read_put t1 l1 s1 h p : (s1 < length l1)%nat -> 1 < h -> read c (put t1 l1 s1 h p) s1 = Ok p.
Proof.
  intros Hlt Hh. unfold read, put. cbn [tbl deref bind].
  rewrite (slot_get_ok _ _ _ (nth_error_upd_eq _ _ _ Hlt)). cbn [bind].
  apply payload_live; [|reflexivity]. unfold isLive, kRemovedHash; cbn [e_hash]; lia.
Qed.
Lemma write_put t1 l1 s1 h p p' : (s1 < length l1)%nat -> 1 < h ->
  write c (put t1 l1 s1 h p) s1 p' = Ok (put t1 l1 s1 h p').
Proof.
  intros Hlt Hh. unfold write, put. cbn [tbl deref bind].
  rewrite (slot_get_ok _ _ _ (nth_error_upd_eq _ _ _ Hlt)). cbn [bind].
  unfold assign, assert_.
  assert (L : isLive (Entry h (Val p)) = true) by (unfold isLive, kRemovedHash; cbn [e_hash]; lia).
  rewrite L, andb_false_r. cbn [bind e_pay e_hash].
  rewrite slot_set_ok by (rewrite upd_length; exact Hlt). cbn [bind cap nelem ndel mincap].
  now rewrite upd_twice.
Qed.

(** ** removal and overwriting *)
Lemma removeEntry_ok t l s e p :
  inv t l -> nth_error l s = Some e -> isLive e = true -> e_pay e = Val p ->
  exists t', removeEntry c t s = Ok t' /\ inv t' (upd l s (Entry kRemovedHash Raw)) /\
    cap t' = cap t /\ nelem t' + ndel t' = nelem t + ndel t /\
    Permutation (contents_l l) (p :: contents_l (upd l s (Entry kRemovedHash Raw))).
Proof.
  intros H He L Hp. pose proof (i_l _ _ H) as HI. pose proof (inv_small _ _ H) as [Hsm Hcs].
  change (2 ^ 31) with 2147483648 in Hsm.
  destruct (kill_ok l (cap t) s e p HI He L Hp) as (HI' & HP & HR).
  pose proof (Permutation_length HP) as HL. cbn [length] in HL.
  pose proof (i_nelem _ _ H) as Hn. pose proof (i_ndel _ _ H) as Hd. pose proof (i_load _ _ H).
  unfold removeEntry. rewrite (i_tbl _ _ H). cbn [deref bind]. rewrite (slot_get_ok _ _ _ He). cbn [bind].
  rewrite assert_true by exact L. unfold setRemoved, destruct_. rewrite L, Hp. cbn [bind].
  rewrite slot_set_ok by (eapply nth_lt; eassumption). cbn [bind].
  unfold setHash. cbn [e_pay].
  rewrite usub1 by (change (2 ^ 32) with 4294967296; lia).
  rewrite uadd_small by (change (2 ^ 32) with 4294967296; lia).
  eexists. split; [reflexivity|]. cbn [cap nelem ndel].
  split; [|split; [reflexivity|split; [lia|exact HP]]].
  constructor; cbn [cap nelem ndel mincap tbl]; auto; try lia; try apply H.
  eapply uniq_tail. eapply uniq_perm; [exact HP|apply H].
Qed.

Lemma write_ok t l s e p k p' :
  inv t l -> nth_error l s = Some e -> isLive e = true -> e_pay e = Val p ->
  matches k p = true -> matches k p' = true ->
  let l' := upd l s (Entry (e_hash e) (Val p')) in
  exists t', write c t s p' = Ok t' /\ inv t' l' /\
    cap t' = cap t /\ nelem t' = nelem t /\ ndel t' = ndel t /\
    Permutation (contents_l l') (p' :: List.filter (fun q => negb (matches k q)) (contents_l l)).
Proof.
  intros H He L Hp Hm Hm' l'. pose proof (i_l _ _ H) as HI.
  pose proof (il_entry _ _ HI _ _ He) as Hok. unfold entry_ok in Hok. rewrite L in Hok.
  destruct Hok as (q & Hq & Hlt & Hk). rewrite Hp in Hq. injection Hq as <-.
  destruct (assign_ok l (cap t) s e p p' HI He L Hp) as (HI' & (A & B & EA & EB) & HR).
  { intros k' Hk'. destruct (Hpol k k' p' Hm' Hk') as [Eh _].
    rewrite <- (Hk k Hm). unfold computeHash. now rewrite Eh. }
  fold l' in HI', EB, HR.
  assert (HU : uniq (p :: A ++ B)).
  { eapply uniq_perm; [|apply H]. rewrite EA. symmetry. apply Permutation_middle. }
  pose proof (uniq_filter k p _ HU Hm) as Hnone.
  assert (HP : Permutation (contents_l l') (p' :: A ++ B)).
  { rewrite EB. symmetry. apply Permutation_middle. }
  unfold write. rewrite (i_tbl _ _ H). cbn [deref bind]. rewrite (slot_get_ok _ _ _ He). cbn [bind].
  unfold assign. rewrite assert_true by exact L. rewrite Hp. cbn [bind].
  rewrite slot_set_ok by (eapply nth_lt; eassumption). cbn [bind]. fold l'.
  eexists. split; [reflexivity|]. cbn [cap nelem ndel].
  split; [|repeat (split; [reflexivity|])].
  - constructor; cbn [cap nelem ndel mincap tbl]; auto; try apply H.
    + eapply uniq_perm; [symmetry; exact HP|]. eapply uniq_cons; eauto. eapply uniq_tail; exact HU.
    + rewrite (Permutation_length HP), (i_nelem _ _ H), EA, app_length. cbn [length].
      rewrite app_length. lia.
    + rewrite HR. apply H.
  - rewrite HP, EA. constructor. rewrite filter_app. cbn [List.filter]. rewrite Hm. cbn [negb].
    rewrite <- filter_app. rewrite filter_all; [reflexivity|].
    intros x Hx. now rewrite (Hnone x Hx).
Qed.

(** ** clear and destroy *)
Lemma setFree_all l : Forall entry_ok l ->
  map_outcome setFree l = Ok (repeat (Entry kFreeHash Raw) (length l)).
Proof.
  induction 1 as [|e l He _ IH]; [reflexivity|]. cbn [map_outcome length repeat].
  assert (E : setFree e = Ok (Entry kFreeHash Raw)).
  { unfold setFree, destruct_. unfold entry_ok in He. destruct (isLive e).
    - destruct He as (p & -> & _). reflexivity.
    - cbn [bind]. unfold setHash. now rewrite He. }
  rewrite E. cbn [bind]. rewrite IH. reflexivity.
Qed.
Lemma destruct_all l : Forall entry_ok l ->
  exists l', map_outcome destruct_ l = Ok l' /\ forallb is_raw l' = true.
Proof.
  induction 1 as [|e l He _ (l' & E & Hr)]; [exists []; auto|]. cbn [map_outcome].
  unfold destruct_ at 1. unfold entry_ok in He. destruct (isLive e).
  - destruct He as (p & -> & _). cbn [bind]. rewrite E. cbn [bind]. eexists; split; [reflexivity|exact Hr].
  - cbn [bind]. rewrite E. cbn [bind]. eexists; split; [reflexivity|].
    cbn. unfold is_raw at 1. rewrite He. exact Hr.
Qed.

Lemma for_entries_ok t l f : inv t l ->
  for_entries t f = (do l' <- map_outcome f l; Ok (Some l')).
Proof.
  intros H. unfold for_entries. pose proof (cap_ok_pos _ (il_cap _ _ (i_l _ _ H))).
  rewrite (proj2 (N.eqb_neq _ _)) by lia. rewrite (i_tbl _ _ H). cbn [deref bind].
  pose proof (il_len _ _ (i_l _ _ H)) as Hl.
  rewrite (proj2 (Nat.ltb_ge _ _)) by lia.
  rewrite <- Hl, firstn_all, skipn_all.
  destruct (map_outcome f l); cbn [bind]; auto. now rewrite app_nil_r.
Qed.

Lemma clear_ok t l : inv t l ->
  exists t' l', clear t = Ok t' /\ inv t' l' /\ contents_l l' = [] /\ nelem t' + ndel t' = 0 /\ cap t' = cap t.
Proof.
  intros H. unfold clear. rewrite (for_entries_ok _ _ _ H).
  rewrite setFree_all by (apply all_entries, (i_l _ _ H)). cbn [bind].
  pose proof (il_len _ _ (i_l _ _ H)) as Hl. rewrite Hl.
  exists (Table (cap t) 0 0 (Some (fresh (cap t))) (mincap t)), (fresh (cap t)).
  split; [reflexivity|]. assert (Ec : contents_l (fresh (cap t)) = []) by apply contents_repeat.
  split; [|auto]. constructor; cbn [cap nelem ndel mincap tbl]; auto; try apply H.
  - apply fresh_inv. apply (i_l _ _ H).
  - rewrite Ec. intros k. cbn. lia.
  - rewrite Ec. reflexivity.
  - unfold fresh. now rewrite nremoved_repeat.
  - lia.
Qed.

Lemma destroy_ok t l : inv t l -> destroy t = Ok tt.
Proof.
  intros H. unfold destroy. rewrite (for_entries_ok _ _ _ H).
  destruct (destruct_all l) as (l' & E & Hr); [apply all_entries, (i_l _ _ H)|].
  rewrite E. cbn [bind]. unfold am_free. now rewrite Hr.
Qed.

(** ** iteration *)
Lemma contents_skipn l i e : nth_error l i = Some e ->
  contents_l (skipn i l) = pay_of e ++ contents_l (skipn (S i) l).
Proof.
  revert i; induction l as [|x l IH]; intros [|i] H; cbn in H; try discriminate.
  - injection H as ->. reflexivity.
  - cbn [skipn]. now rewrite (IH _ H).
Qed.
Lemma contents_firstn l i e : nth_error l i = Some e ->
  contents_l (firstn (S i) l) = contents_l (firstn i l) ++ pay_of e.
Proof.
  revert i; induction l as [|x l IH]; intros [|i] H; cbn in H; try discriminate.
  - injection H as ->. cbn [firstn]. rewrite contents_cons. apply app_nil_r.
  - change (firstn (S (S i)) (x :: l)) with (x :: firstn (S i) l).
    change (firstn (S i) (x :: l)) with (x :: firstn i l).
    now rewrite !contents_cons, (IH _ H), app_assoc.
Qed.
Lemma skipn_upd {A} (l : list A) i x : skipn (S i) (upd l i x) = skipn (S i) l.
Proof. revert i; induction l as [|a l IH]; intros [|i]; auto. exact (IH i). Qed.
Lemma firstn_upd {A} (l : list A) i x : firstn i (upd l i x) = firstn i l.
Proof. revert i; induction l as [|a l IH]; intros [|i]; auto. cbn. now rewrite IH. Qed.

Lemma skip_dead_ok (l : list entry) cp : length l = cp ->
  forall fuel i, (i <= cp)%nat -> (cp - i < fuel)%nat ->
  exists j, skip_dead fuel l cp i = Ok j /\ (i <= j <= cp)%nat /\
    contents_l (skipn i l) = contents_l (skipn j l) /\
    contents_l (firstn i l) = contents_l (firstn j l) /\
    (j = cp \/ exists e, nth_error l j = Some e /\ isLive e = true).
Proof.
  intros Hl. induction fuel as [|f IH]; intros i Hi Hf; [lia|]. cbn [skip_dead].
  destruct (Nat.ltb_spec i cp) as [Hlt|Hge].
  - destruct (nth_error l i) as [e|] eqn:He; [|apply nth_error_None in He; lia].
    rewrite (slot_get_ok _ _ _ He). cbn [bind]. destruct (isLive e) eqn:L.
    + exists i. repeat split; auto; try lia. right; eauto.
    + destruct (IH (S i)) as (j & E & Hj & Hs & Hfi & Hend); [lia|lia|].
      exists j. split; [exact E|]. split; [lia|].
      rewrite (contents_skipn _ _ _ He), (pay_dead _ L). split; [exact Hs|].
      rewrite (contents_firstn _ _ _ He), (pay_dead _ L), app_nil_r in Hfi. split; [exact Hfi|exact Hend].
  - exists i. split; [reflexivity|]. split; [lia|]. split; [reflexivity|]. split; [reflexivity|]. left; lia.
Qed.

Lemma iter_loop_ok pred :
  forall fuel t l i acc,
  inv t l -> (i <= length l)%nat -> (length l - i < fuel)%nat ->
  (i = length l \/ exists e, nth_error l i = Some e /\ isLive e = true) ->
  exists t' l', iter_loop c fuel pred t i acc = Ok (t', rev acc ++ contents_l (skipn i l)) /\
    inv t' l' /\ cap t' = cap t /\ nelem t' + ndel t' = nelem t + ndel t /\
    ((forall p, pred p = false) -> t' = t) /\
    contents_l l' = contents_l (firstn i l) ++ List.filter (fun q => negb (pred q)) (contents_l (skipn i l)).
Proof.
  induction fuel as [|f IH]; intros t l i acc H Hi Hf Hat; [lia|]. cbn [iter_loop].
  pose proof (il_len _ _ (i_l _ _ H)) as Hlen.
  destruct (Nat.eqb_spec i (N.to_nat (cap t))) as [Ei|Ei].
  - exists t, l. assert (Es : skipn i l = []) by (apply skipn_all2; lia). rewrite Es. cbn [contents_l flat_map].
    rewrite app_nil_r. split; [reflexivity|]. split; [exact H|].
    split; [reflexivity|]. split; [reflexivity|]. split; [reflexivity|].
    cbn. rewrite app_nil_r. f_equal. rewrite firstn_all2; [reflexivity|lia].
  - destruct Hat as [Hat|(e & He & L)]; [lia|].
    unfold entries at 1. rewrite (i_tbl _ _ H). rewrite (slot_get_ok _ _ _ He). cbn [bind].
    pose proof (il_entry _ _ (i_l _ _ H) _ _ He) as Hok. unfold entry_ok in Hok. rewrite L in Hok.
    destruct Hok as (p & Hp & _ & _). rewrite (payload_live _ _ L Hp). cbn [bind].
    pose proof (nth_lt _ _ _ He) as Hlt.
    destruct (pred p) eqn:Epr.
    + destruct (removeEntry_ok t l i e p H He L Hp) as (t1 & E1 & H1 & Ec1 & Et1 & HP1).
      rewrite E1. cbn [bind]. unfold entries. rewrite (i_tbl _ _ H1). rewrite <- Ec1.
      set (l1 := upd l i (Entry kRemovedHash Raw)) in *.
      assert (Hl1 : length l1 = length l) by apply upd_length.
      destruct (skip_dead_ok l1 (N.to_nat (cap t1))) with (fuel := S (length l1)) (i := S i)
        as (j & Ej & Hj & Hs & Hfi & Hend); [rewrite Ec1; lia|rewrite Ec1; lia|rewrite Ec1; lia|].
      rewrite Ej. cbn [bind].
      destruct (IH t1 l1 j (p :: acc) H1) as (t' & l' & E' & H' & Ec' & Et' & Hsame & Hc').
      { rewrite Ec1 in Hj. lia. }
      { lia. }
      { destruct Hend as [->|]; [left; rewrite Ec1; lia|right; assumption]. }
      exists t', l'. rewrite E'. rewrite <- Hs.
      unfold l1 at 1. rewrite skipn_upd. rewrite (contents_skipn _ _ _ He), (pay_live _ _ L Hp).
      split; [cbn [rev]; now rewrite <- app_assoc|]. split; [exact H'|].
      split; [congruence|]. split; [lia|]. split; [intros Hall; rewrite Hall in Epr; discriminate|].
      rewrite Hc', <- Hs, <- Hfi. unfold l1. rewrite skipn_upd.
      rewrite (contents_firstn _ i (Entry kRemovedHash Raw)) by now apply nth_error_upd_eq.
      rewrite firstn_upd. cbn [pay_of isLive e_hash]. cbn [app List.filter]. rewrite Epr. cbn [negb].
      now rewrite (pay_dead (Entry kRemovedHash Raw)), app_nil_r.
    + cbn [bind]. unfold entries. rewrite (i_tbl _ _ H).
      destruct (skip_dead_ok l (N.to_nat (cap t))) with (fuel := S (length l)) (i := S i)
        as (j & Ej & Hj & Hs & Hfi & Hend); [lia|lia|lia|].
      rewrite Ej. cbn [bind].
      destruct (IH t l j (p :: acc) H) as (t' & l' & E' & H' & Ec' & Et' & Hsame & Hc').
      { lia. }
      { lia. }
      { destruct Hend as [->|]; [left; lia|right; assumption]. }
      exists t', l'. rewrite E'. rewrite <- Hs.
      rewrite (contents_skipn _ _ _ He), (pay_live _ _ L Hp).
      split; [cbn [rev]; now rewrite <- app_assoc|]. split; [exact H'|].
      split; [congruence|]. split; [lia|]. split; [exact Hsame|].
      rewrite Hc', <- Hs, <- Hfi.
      rewrite (contents_firstn _ _ _ He), (pay_live _ _ L Hp).
      cbn [app List.filter]. rewrite Epr. cbn [negb]. now rewrite <- app_assoc.
Qed.

Lemma iterate_ok pred t l : inv t l ->
  exists t' l', iterate c pred t = Ok (t', contents_l l) /\ inv t' l' /\ cap t' = cap t /\
    nelem t' + ndel t' = nelem t + ndel t /\ ((forall p, pred p = false) -> t' = t) /\
    contents_l l' = List.filter (fun q => negb (pred q)) (contents_l l).
Proof.
  intros H. unfold iterate, entries. rewrite (i_tbl _ _ H).
  pose proof (il_len _ _ (i_l _ _ H)) as Hlen.
  destruct (skip_dead_ok l (N.to_nat (cap t))) with (fuel := S (length l)) (i := 0%nat)
    as (j & Ej & Hj & Hs & Hfi & Hend); [lia|lia|lia|].
  rewrite Ej. cbn [bind].
  destruct (iter_loop_ok pred (S (length l)) t l j [] H) as (t' & l' & E' & H' & Ec' & Et' & Hsame & Hc').
  { lia. }
  { lia. }
  { destruct Hend as [->|]; [left; lia|right; assumption]. }
  exists t', l'. rewrite E'. cbn [rev app]. rewrite <- Hs. cbn [skipn].
  split; [reflexivity|]. split; [exact H'|]. split; [exact Ec'|]. split; [exact Et'|].
  split; [exact Hsame|]. rewrite Hc', <- Hs, <- Hfi. reflexivity.
Qed.

(** ** One step *)
Definition adds (o : op Key Payload) : N :=
  match o with OAdd _ _ _ | OAddInPlace _ _ _ | OSet _ _ _ => 1 | _ => 0 end.
Definition refused (o : op Key Payload) : bool :=
  match o with
  | OAdd _ _ a | OAddInPlace _ _ a | OSet _ _ a | OCheckDensity a => negb a
  | _ => false
  end.

Lemma found_ok t l s e : inv t l -> nth_error l s = Some e -> found t s = Ok (isLive e).
Proof.
  intros H He. unfold found. rewrite (i_tbl _ _ H). cbn [deref bind].
  rewrite (slot_get_ok _ _ _ He). reflexivity.
Qed.
Lemma read_ok t l s e p : inv t l -> nth_error l s = Some e -> isLive e = true -> e_pay e = Val p ->
  read c t s = Ok p.
Proof.
  intros H He L Hp. unfold read. rewrite (i_tbl _ _ H). cbn [deref bind].
  rewrite (slot_get_ok _ _ _ He). cbn [bind]. now apply payload_live.
Qed.

Definition may (t : table) (alloc : bool) : Prop := aborts c = false /\ (alloc = false \/ limit t).

Definition step_post (t : table) (l : list entry) (o : op Key Payload) : Prop :=
  (debug c = true /\ limit t /\ step hashf matches dflt c t o = Fault AssertFail) \/
  ((refused o = true \/ limit t) /\ aborts c = true /\ step hashf matches dflt c t o = Fault Abort) \/
  (exists t' r l', step hashf matches dflt c t o = Ok (t', r) /\ inv t' l' /\
     spec_step matches (may t) (contents_l l) o r (contents_l l') /\
     nelem t' + ndel t' <= nelem t + ndel t + adds o /\
     (r = RFailed -> t' = t)).

Lemma step_ok t l o : inv t l -> 16 <= kMaxCapacity c -> op_ok matches o -> step_post t l o.
Proof.
  intros H Hk Hop. unfold step_post.
  assert (Hadd : forall k p alloc s,
    insert_pos l (cap t) (computeHash hashf k) s -> matches k p = true ->
    (forall q, In q (contents_l l) -> matches k q = false) ->
    (debug c = true /\ limit t /\ forall q, add c alloc t (s, computeHash hashf k) q = Fault AssertFail) \/
    ((alloc = false \/ limit t) /\ aborts c = true /\
       forall q, add c alloc t (s, computeHash hashf k) q = Fault Abort) \/
    ((alloc = false \/ limit t) /\ aborts c = false /\
       forall q, add c alloc t (s, computeHash hashf k) q = Ok (t, (s, computeHash hashf k), false)) \/
    (exists t1 l1 s1, added t l (computeHash hashf k) t1 l1 s1 /\ (s1 < length l1)%nat /\
       (forall q, add c alloc t (s, computeHash hashf k) q =
         Ok (put t1 l1 s1 (computeHash hashf k) q, (s1, computeHash hashf k), true)))).
  { intros k p alloc s Hpos Hm Hnone.
    destruct (internalAdd_ok alloc t l s (computeHash hashf k) H Hk Hpos (computeHash_live k)) as
      [(?&?&E)|[(?&?&E)|[(?&?&E)|(t1 & l1 & s1 & E & Ha)]]].
    - left. repeat split; auto. intros q. unfold add. now rewrite E.
    - right; left. repeat split; auto. intros q. unfold add. now rewrite E.
    - right; right; left. repeat split; auto. intros q. unfold add. now rewrite E.
    - right; right; right. exists t1, l1, s1. split; [exact Ha|]. split.
      + destruct Ha as (_ & [(e1 & He1 & _) _] & _). eapply nth_lt; eassumption.
      + intros q. eapply add_of_internal; eauto. }
  destruct o as [k p alloc|k p alloc|k p alloc|k p|k|k|k| |alloc| |pred| |];
    cbn [step spec_step adds refused]; cbn [op_ok] in Hop.
  - (* OAdd *)
    destruct (findForAdd_ok t l k H) as (s & Es & (e & He & Hpost) & Hins).
    rewrite Es. cbn [bind fst]. rewrite (found_ok _ _ _ _ H He). cbn [bind].
    destruct Hpost as [(L & p0 & Hp0 & Hm0 & Hin)|(L & Hnone)]; rewrite L.
    + right; right. rewrite (read_ok _ _ _ _ _ H He L Hp0). cbn [bind].
      exists t, (RFound p0), l. split; [reflexivity|]. split; [exact H|]. split; [|split; [lia|discriminate]].
      left. split; [exists p0; auto|reflexivity].
    + destruct (Hadd k p alloc s) as [(?&?&E)|[(?&?&E)|[(?&?&E)|(t1 & l1 & s1 & Ha & Hlt & E)]]]; eauto;
        rewrite (E p); cbn [bind].
      * left. auto.
      * right; left. split; [|auto]. destruct H0 as [->|]; auto.
      * right; right. exists t, RFailed, l. split; [reflexivity|]. split; [exact H|].
        split; [|split; [lia|auto]]. right. right. repeat split; auto.
      * right; right. cbn [fst]. rewrite (read_put _ _ _ _ _ Hlt) by apply computeHash_live. cbn [bind].
        destruct (put_inv t l k p t1 l1 s1 H Hop Hnone Ha) as (H' & HP').
        eexists _, _, _. split; [reflexivity|]. split; [exact H'|]. split; [|split; [|discriminate]].
        -- right. left. auto.
        -- destruct Ha as (_&_&_&_&_&_&_&_&_&_&Htot). exact Htot.
  - (* OAddInPlace *)
    destruct (findForAdd_ok t l k H) as (s & Es & (e & He & Hpost) & Hins).
    rewrite Es. cbn [bind fst]. rewrite (found_ok _ _ _ _ H He). cbn [bind].
    destruct Hpost as [(L & p0 & Hp0 & Hm0 & Hin)|(L & Hnone)]; rewrite L.
    + right; right. rewrite (read_ok _ _ _ _ _ H He L Hp0). cbn [bind].
      exists t, (RFound p0), l. split; [reflexivity|]. split; [exact H|]. split; [|split; [lia|discriminate]].
      left. split; [exists p0; auto|reflexivity].
    + destruct (Hadd k p alloc s) as [(?&?&E)|[(?&?&E)|[(?&?&E)|(t1 & l1 & s1 & Ha & Hlt & E)]]]; eauto;
        rewrite (E dflt); cbn [bind].
      * left. auto.
      * right; left. split; [|auto]. destruct H0 as [->|]; auto.
      * right; right. exists t, RFailed, l. split; [reflexivity|]. split; [exact H|].
        split; [|split; [lia|auto]]. right. right. repeat split; auto.
      * right; right. cbn [fst].
        rewrite (write_put _ _ _ _ _ _ Hlt) by apply computeHash_live. cbn [bind].
        rewrite (read_put _ _ _ _ _ Hlt) by apply computeHash_live. cbn [bind].
        destruct (put_inv t l k p t1 l1 s1 H Hop Hnone Ha) as (H' & HP').
        eexists _, _, _. split; [reflexivity|]. split; [exact H'|]. split; [|split; [|discriminate]].
        -- right. left. auto.
        -- destruct Ha as (_&_&_&_&_&_&_&_&_&_&Htot). exact Htot.
  - (* OSet *)
    destruct (findForAdd_ok t l k H) as (s & Es & (e & He & Hpost) & Hins).
    rewrite Es. cbn [bind fst]. rewrite (found_ok _ _ _ _ H He). cbn [bind].
    destruct Hpost as [(L & p0 & Hp0 & Hm0 & Hin)|(L & Hnone)]; rewrite L.
    + right; right. rewrite (read_ok _ _ _ _ _ H He L Hp0). cbn [bind].
      destruct (write_ok t l s e p0 k p H He L Hp0 Hm0 Hop) as (t' & Ew & H' & Ec & En & Ed & HP).
      rewrite Ew. cbn [bind]. eexists _, _, _. split; [reflexivity|]. split; [exact H'|].
      split; [|split; [lia|discriminate]]. left. split; [exists p0; auto|exact HP].
    + destruct (Hadd k p alloc s) as [(?&?&E)|[(?&?&E)|[(?&?&E)|(t1 & l1 & s1 & Ha & Hlt & E)]]]; eauto;
        rewrite (E p); cbn [bind].
      * left. auto.
      * right; left. split; [|auto]. destruct H0 as [->|]; auto.
      * right; right. exists t, RFailed, l. split; [reflexivity|]. split; [exact H|].
        split; [|split; [lia|auto]]. right. right. repeat split; auto.
      * right; right. cbn [fst]. rewrite (read_put _ _ _ _ _ Hlt) by apply computeHash_live. cbn [bind].
        destruct (put_inv t l k p t1 l1 s1 H Hop Hnone Ha) as (H' & HP').
        eexists _, _, _. split; [reflexivity|]. split; [exact H'|]. split; [|split; [|discriminate]].
        -- right. left. auto.
        -- destruct Ha as (_&_&_&_&_&_&_&_&_&_&Htot). exact Htot.
  - (* OUpdate *)
    right; right. destruct (find_ok t l k H) as (s & Es & (e & He & Hpost)).
    rewrite Es. cbn [bind]. rewrite (found_ok _ _ _ _ H He). cbn [bind].
    destruct Hpost as [(L & p0 & Hp0 & Hm0 & Hin)|(L & Hnone)]; rewrite L.
    + rewrite (read_ok _ _ _ _ _ H He L Hp0). cbn [bind].
      destruct (write_ok t l s e p0 k p H He L Hp0 Hm0 Hop) as (t' & Ew & H' & Ec & En & Ed & HP).
      rewrite Ew. cbn [bind]. eexists _, _, _. split; [reflexivity|]. split; [exact H'|].
      split; [|split; [lia|discriminate]]. left. split; [exists p0; auto|exact HP].
    + exists t, RAbsent, l. split; [reflexivity|]. split; [exact H|].
      split; [|split; [lia|discriminate]]. right. split; [split; auto|reflexivity].
  - (* OFind *)
    right; right. destruct (find_ok t l k H) as (s & Es & (e & He & Hpost)).
    rewrite Es. cbn [bind]. rewrite (found_ok _ _ _ _ H He). cbn [bind].
    destruct Hpost as [(L & p0 & Hp0 & Hm0 & Hin)|(L & Hnone)]; rewrite L.
    + rewrite (read_ok _ _ _ _ _ H He L Hp0). cbn [bind].
      exists t, (RFound p0), l. split; [reflexivity|]. split; [exact H|].
      split; [|split; [lia|discriminate]]. split; [left; exists p0; auto|reflexivity].
    + exists t, RAbsent, l. split; [reflexivity|]. split; [exact H|].
      split; [|split; [lia|discriminate]]. split; [right; split; auto|reflexivity].
  - (* OFindForAdd *)
    right; right. destruct (findForAdd_ok t l k H) as (s & Es & (e & He & Hpost) & _).
    rewrite Es. cbn [bind fst]. rewrite (found_ok _ _ _ _ H He). cbn [bind].
    destruct Hpost as [(L & p0 & Hp0 & Hm0 & Hin)|(L & Hnone)]; rewrite L.
    + rewrite (read_ok _ _ _ _ _ H He L Hp0). cbn [bind].
      exists t, (RFound p0), l. split; [reflexivity|]. split; [exact H|].
      split; [|split; [lia|discriminate]]. split; [left; exists p0; auto|reflexivity].
    + exists t, RAbsent, l. split; [reflexivity|]. split; [exact H|].
      split; [|split; [lia|discriminate]]. split; [right; split; auto|reflexivity].
  - (* ORemove *)
    right; right. unfold removeIfExists. destruct (find_ok t l k H) as (s & Es & (e & He & Hpost)).
    rewrite Es. cbn [bind]. rewrite (found_ok _ _ _ _ H He). cbn [bind].
    destruct Hpost as [(L & p0 & Hp0 & Hm0 & Hin)|(L & Hnone)]; rewrite L.
    + unfold remove. rewrite (found_ok _ _ _ _ H He). cbn [bind]. rewrite assert_true by exact L.
      destruct (removeEntry_ok t l s e p0 H He L Hp0) as (t' & Er & H' & Ec & Et & HP).
      rewrite Er. cbn [bind]. eexists _, _, _. split; [reflexivity|]. split; [exact H'|].
      split; [|split; [lia|discriminate]]. split; [reflexivity|].
      assert (HU : uniq (p0 :: contents_l (upd l s (Entry kRemovedHash Raw)))).
      { eapply uniq_perm; [exact HP|apply H]. }
      rewrite (filter_perm _ _ _ HP). cbn [List.filter]. rewrite Hm0. cbn [negb].
      rewrite filter_all; [reflexivity|]. intros q Hq. now rewrite (uniq_filter _ _ _ HU Hm0 q Hq).
    + exists t, RUnit, l. split; [reflexivity|]. split; [exact H|].
      split; [|split; [lia|discriminate]]. split; [reflexivity|].
      rewrite filter_all; [reflexivity|]. intros q Hq. now rewrite (Hnone q Hq).
  - (* OClear *)
    right; right. destruct (clear_ok t l H) as (t' & l' & E & H' & Hc & Hz & _).
    rewrite E. cbn [bind]. exists t', RUnit, l'. rewrite Hc. repeat split; auto; try lia; try apply H'. discriminate.
  - (* OCheckDensity *)
    destruct (checkDensity_ok alloc t l H Hk) as
      [(?&?&E)|[(?&?&E)|[(?&?&E)|[(Hov&E)|(t' & l' & E & HI' & Ecap & En & Ed & Emin & Hld & HP)]]]];
      rewrite E; cbn [bind].
    + left. auto.
    + right; left. split; [|auto]. destruct H0 as [->|]; auto.
    + right; right. exists t, RFailed, l. split; [reflexivity|]. split; [exact H|].
      split; [|split; [lia|auto]]. split; [right; split; [reflexivity|split; auto]|reflexivity].
    + right; right. exists t, RUnit, l. split; [reflexivity|]. split; [exact H|].
      split; [|split; [lia|auto]]. split; [left; reflexivity|reflexivity].
    + right; right. exists t', RUnit, l'. split; [reflexivity|]. split; [exact HI'|].
      split; [|split; [lia|discriminate]]. split; [left; reflexivity|exact HP].
  - (* OMove *)
    right; right. cbn. exists (Table (cap t) (nelem t) (ndel t) (tbl t) (mincap t)), RUnit, l.
    split; [reflexivity|]. split; [destruct t; exact H|]. split; [|split; [cbn; lia|discriminate]]. auto.
  - (* OEraseIf *)
    right; right. destruct (iterate_ok pred t l H) as (t' & l' & E & H' & Ec & Et & _ & Hc).
    rewrite E. cbn [bind]. eexists t', _, l'. split; [reflexivity|]. split; [exact H'|].
    split; [|split; [lia|discriminate]]. split; [eexists; split; reflexivity|]. now rewrite Hc.
  - (* OIterate *)
    right; right. destruct (iterate_ok (fun _ => false) t l H) as (t' & l' & E & H' & Ec & Et & Hs & Hc).
    rewrite E. cbn [bind]. eexists t', _, l'. split; [reflexivity|]. split; [exact H'|].
    split; [|split; [lia|discriminate]]. split; [eexists; split; reflexivity|].
    rewrite Hc. rewrite filter_all; auto.
  - (* OElements *)
    right; right. exists t, (RNum (nelem t)), l. split; [reflexivity|]. split; [exact H|].
    split; [|split; [lia|discriminate]]. rewrite (i_nelem _ _ H). auto.
Qed.

(** ** Histories *)
Lemma spec_step_mono (f g : bool -> Prop) S o r S' : (forall a, f a -> g a) ->
  spec_step matches f S o r S' -> spec_step matches g S o r S'.
Proof.
  intros Hfg. destruct o; cbn; unfold spec_add; intuition.
Qed.

Definition total_adds (ops : list (op Key Payload)) : N := fold_right (fun o n => adds o + n) 0 ops.

(** The capacity limit can only come into play once 3/8 of kMaxCapacity entries have been added. *)
Definition over (n : N) : Prop := 3 * kMaxCapacity c < 8 * n.

Lemma limit_over t l n : inv t l -> 16 <= kMaxCapacity c -> nelem t + ndel t <= n -> limit t -> over n.
Proof.
  intros H Hk Hn [(Ho & Hc)|E]; unfold over; [|lia].
  pose proof (inv_small _ _ H) as [Hsm Hcs].
  pose proof (load_lt _ (il_cap _ _ (i_l _ _ H))).
  change (2 ^ 31) with 2147483648 in Hsm, Hcs.
  unfold overloaded in Ho.
  rewrite !uadd_small in Ho by (change (2 ^ 32) with 4294967296; lia).
  destruct (il_cap _ _ (i_l _ _ H)) as (j & Ej & Hj).
  assert (E4 : cap t = 4 * (cap t / 4)).
  { assert (cap t = 4 * 2 ^ (j - 2)).
    { rewrite Ej. change 4 with (2 ^ 2). rewrite <- N.pow_add_r. f_equal. lia. }
    rewrite H1 at 2. rewrite (N.mul_comm 4 (2 ^ _)), N.div_mul by lia. lia. }
  assert (E2 : cap t / 2 = 2 * (cap t / 4)).
  { rewrite E4 at 1. replace (4 * (cap t / 4)) with (2 * (cap t / 4) * 2) by lia.
    now rewrite N.div_mul by lia. }
  lia.
Qed.

Lemma run_ok ops : forall t l n, inv t l -> 16 <= kMaxCapacity c -> Forall (op_ok matches) ops ->
  nelem t + ndel t <= n ->
  (debug c = true /\ over (n + total_adds ops) /\ run hashf matches dflt c t ops = Fault AssertFail) \/
  ((existsb refused ops = true \/ over (n + total_adds ops)) /\ aborts c = true /\
     run hashf matches dflt c t ops = Fault Abort) \/
  (exists t' rs l', run hashf matches dflt c t ops = Ok (t', rs) /\ inv t' l' /\
     spec_run matches (fun a => aborts c = false /\ (a = false \/ over (n + total_adds ops)))
       (contents_l l) ops rs (contents_l l') /\ nelem t' + ndel t' <= n + total_adds ops).
Proof.
  induction ops as [|o ops IH]; intros t l n H Hk Hops Hn.
  - right; right. exists t, [], l. repeat split; try apply H; auto; [constructor|cbn; lia].
  - inversion Hops as [|? ? Ho Hops']; subst. cbn [run existsb].
    change (total_adds (o :: ops)) with (adds o + total_adds ops).
    assert (Hlim : limit t -> over (n + (adds o + total_adds ops))).
    { intros Hl. pose proof (limit_over t l n H Hk Hn Hl). unfold over in *. lia. }
    destruct (step_ok t l o H Hk Ho) as [(?&?&E)|[(Hr&?&E)|(t1 & r & l1 & E & H1 & Hs & Ht & _)]];
      rewrite E; cbn [bind].
    + left. auto.
    + right; left. split; [|auto]. destruct Hr as [->|]; auto.
    + destruct (IH t1 l1 (n + adds o) H1 Hk Hops') as
        [(?&?&E')|[(Hr&?&E')|(t' & rs & l' & E' & H' & Hs' & Ht')]]; [lia| | |];
        rewrite E'; cbn [bind]; rewrite <- ?N.add_assoc in *.
      * left. auto.
      * right; left. split; [|auto]. destruct Hr as [->|]; [left; apply orb_true_r|auto].
      * right; right. exists t', (r :: rs), l'. split; [reflexivity|]. split; [exact H'|].
        split; [|lia]. econstructor; [|exact Hs'].
        eapply spec_step_mono; [|exact Hs]. intros a [Ha1 Ha2]. split; [exact Ha1|].
        destruct Ha2; auto.
Qed.

(** ** init *)
Lemma init_ok capacity : m0 = N.max 16 capacity -> 16 <= kMaxCapacity c ->
  (capacity < 16 \/ (is_pow2 capacity /\ 16 <= capacity <= kMaxCapacity c)) ->
  exists t, init c true (@ctor Payload) capacity = Ok (t, true) /\
    inv t (fresh (cap t)) /\ cap t = N.max 16 capacity /\ mincap t = N.max 16 capacity /\ nelem t = 0 /\ ndel t = 0.
Proof.
  intros Hm0 Hk Hcap. unfold init, kMinCapacity.
  assert (HkM : kMaxCapacity c < 2 ^ 31).
  { unfold kMaxCapacity. eapply N.le_lt_trans; [apply N.div_le_upper_bound with (q := 2147483647)|reflexivity].
    - intros E. unfold kMaxCapacity in Hk. rewrite E in Hk. cbn in Hk. lia.
    - assert (sizeof_entry c <> 0) by (intros E; unfold kMaxCapacity in Hk; rewrite E in Hk; cbn in Hk; lia).
      nia. }
  assert (Hgo : forall cp, cap_ok cp -> cp <= kMaxCapacity c -> m0 = cp ->
    exists t, (do _ <- assert_ (debug c) (IsPowerOfTwo 64 cp);
      do tb <- createTable c true (uw 32 cp);
      Ok (Table (uw 32 cp) (nelem (@ctor Payload)) (ndel (@ctor Payload)) tb (uw 32 cp),
          match tb with Some _ => true | None => false end)) = Ok (t, true) /\
      inv t (fresh (cap t)) /\ cap t = cp /\ mincap t = cp /\ nelem t = 0 /\ ndel t = 0).
  { intros cp Hc Hle Hm. rewrite assert_true by now apply cap_ok_pow2.
    pose proof (cap_ok_pos _ Hc).
    rewrite uw_small by (change (2 ^ 32) with 4294967296; change (2 ^ 31) with 2147483648 in *; lia).
    unfold createTable, am_malloc_table. rewrite assert_true by lia. cbn [bind].
    eexists. split; [reflexivity|]. cbn [cap nelem ndel mincap].
    split; [|auto]. constructor; cbn [cap nelem ndel mincap tbl ctor]; auto.
    - now apply fresh_inv.
    - unfold fresh. rewrite contents_repeat. intros k. cbn. lia.
    - unfold fresh. now rewrite contents_repeat.
    - unfold fresh. now rewrite nremoved_repeat.
    - lia.
    - lia. }
  destruct (N.ltb_spec capacity 16) as [Hlt|Hge].
  - replace (N.max 16 capacity) with 16 by lia. apply Hgo; [|exact Hk|lia]. exists 4. split; [reflexivity|lia].
  - destruct Hcap as [|[[j Hj] Hr]]; [lia|].
    rewrite (proj2 (N.ltb_ge _ _)) by lia.
    replace (N.max 16 capacity) with capacity by lia.
    apply Hgo; [|lia|lia]. exists j. split; [exact Hj|].
    assert (2 ^ 4 <= 2 ^ j) by (change (2 ^ 4) with 16; lia).
    apply N.pow_le_mono_r_iff in H; [|lia].
    assert (2 ^ j < 2 ^ 31) by lia. apply N.pow_lt_mono_r_iff in H0; lia.
Qed.

(** ** From invariants to statements about whole lives *)
Lemma total_adds_filter ops : total_adds ops = N.of_nat (length (List.filter is_add ops)).
Proof.
  induction ops as [|o ops IH]; [reflexivity|].
  change (total_adds (o :: ops)) with (adds o + total_adds ops). rewrite IH. cbn [List.filter].
  destruct o; cbn [adds is_add length]; lia.
Qed.
Lemma refused_eq o : refused o = alloc_refused o.
Proof. now destruct o. Qed.
Lemma refused_ex ops : existsb refused ops = true -> Exists (fun o => alloc_refused o = true) ops.
Proof.
  intros H. apply existsb_exists in H as (o & Hin & Ho). apply Exists_exists. exists o.
  now rewrite <- refused_eq.
Qed.

Lemma life_ok capacity ops : m0 = N.max 16 capacity ->
  config_ok c -> capacity_ok c capacity -> Forall (op_ok matches) ops ->
  (debug c = true /\ near_limit c ops /\ life hashf matches dflt c capacity ops = Fault AssertFail) \/
  ((Exists (fun o => alloc_refused o = true) ops \/ near_limit c ops) /\ aborts c = true /\
     life hashf matches dflt c capacity ops = Fault Abort) \/
  (exists t outs S, life hashf matches dflt c capacity ops = Ok (t, outs) /\
     spec_run matches (fun a => aborts c = false /\ (a = false \/ near_limit c ops)) [] ops outs S).
Proof.
  intros Hm Hk Hc Hops. destruct (init_ok capacity Hm Hk Hc) as (t & E & Hi & _ & _ & En & Ed).
  unfold life. rewrite E. cbn [bind].
  destruct (run_ok ops t (fresh (cap t)) 0 Hi Hk Hops) as [(?&Ho&Er)|[(Ho&?&Er)|(t' & rs & l' & Er & H' & Hs & _)]];
    [lia| | |]; rewrite Er; cbn [bind]; rewrite N.add_0_l, total_adds_filter in *.
  - left. auto.
  - right; left. split; [|auto]. destruct Ho as [Ho|Ho]; [left; now apply refused_ex|right; exact Ho].
  - right; right. rewrite (destroy_ok _ _ H'). cbn [bind].
    exists t', rs, (contents_l l'). split; [reflexivity|].
    unfold fresh in Hs. rewrite contents_repeat in Hs. exact Hs.
Qed.

Lemma reachable_inv capacity t : m0 = N.max 16 capacity -> config_ok c -> reachable matches hashf dflt c capacity t -> exists l, inv t l.
Proof.
  intros Hm Hk (Hc & t0 & ops & outs & Ei & Hops & Er).
  destruct (init_ok capacity Hm Hk Hc) as (t1 & E & Hi & _ & _ & En & Ed).
  rewrite E in Ei. injection Ei as ->.
  destruct (run_ok ops t0 (fresh (cap t0)) 0 Hi Hk Hops) as [(?&Ho&Er')|[(Ho&?&Er')|(t' & rs & l' & Er' & H' & Hs & _)]];
    [lia|congruence|congruence|].
  rewrite Er in Er'. injection Er' as -> _. eauto.
Qed.

End HT.
