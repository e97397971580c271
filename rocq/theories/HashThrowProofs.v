(** Proofs for HashThrowProps.v. *)
From Verif Require Import Base BitsModel HashTableModel HashTableSpec HashTableProofs HashThrowModel HashThrowSpec.
Local Open Scope N_scope.

Section HT.
Variable Key Payload : Type.
Variable hashf : Key -> N.
Variable matches : Key -> Payload -> bool.
Variable dflt : Payload.
Variable c : cfg.
Hypothesis Hpol : policy_ok matches hashf.
Variable m0 : N.
Notation entry := (entry Payload).
Notation table := (table Payload).
Notation inv := (inv Key Payload hashf matches c m0).

(** Entries of a sane table, and the entry that a throw leaves. *)
Definition sane (e : entry) : Prop := if isLive e then exists p, e_pay e = Val p else e_pay e = Raw.
Definition hollow (e : entry) : Prop := isLive e = true /\ e_pay e = Raw.

Lemma entry_ok_sane e : entry_ok Key Payload hashf matches e -> sane e.
Proof. unfold entry_ok, sane. destruct (isLive e); [|auto]. intros (p & H & _). eauto. Qed.
Lemma inv_sane t l : inv t l -> Forall sane l.
Proof.
  intros H. eapply Forall_impl; [apply entry_ok_sane|]. apply all_entries. apply (i_l _ _ _ _ _ _ _ _ H).
Qed.

Lemma destruct_hollow l : Forall (fun e => sane e \/ hollow e) l -> Exists hollow l ->
  map_outcome destruct_ l = Fault DoubleFree.
Proof.
  induction 1 as [|e l He _ IH]; intros Hx; [inversion Hx|]. cbn [map_outcome].
  destruct He as [Hs|[L R]].
  - assert (exists e', destruct_ e = Ok e') as [e' E].
    { unfold destruct_, sane in *. destruct (isLive e); [destruct Hs as [p ->]|]; eauto. }
    rewrite E. cbn [bind]. rewrite IH; [reflexivity|].
    inversion Hx as [? ? [L R]|]; subst; [|assumption]. unfold sane in Hs. rewrite L in Hs. destruct Hs. congruence.
  - unfold destruct_. rewrite L, R. reflexivity.
Qed.

Lemma destroy_hollow (t : table) l : tbl t = Some l -> length l = N.to_nat (cap t) -> cap t <> 0 ->
  Forall (fun e => sane e \/ hollow e) l -> Exists hollow l -> destroy t = Fault DoubleFree.
Proof.
  intros Ht Hl Hc Hf Hx. unfold destroy, for_entries.
  rewrite (proj2 (N.eqb_neq _ _)) by exact Hc. rewrite Ht. cbn [deref bind].
  rewrite (proj2 (Nat.ltb_ge _ _)) by lia. rewrite <- Hl, firstn_all, (destruct_hollow l Hf Hx). reflexivity.
Qed.

Lemma Forall_upd {A} (P : A -> Prop) l i x : Forall P l -> P x -> Forall P (upd l i x).
Proof.
  intros H Hx. revert i; induction H; intros [|i]; cbn; constructor; auto.
Qed.
Lemma Exists_upd {A} (P : A -> Prop) l i x : (i < length l)%nat -> P x -> Exists P (upd l i x).
Proof.
  revert i; induction l as [|h l IH]; intros [|i] Hi Hx; cbn in *; try lia; auto using Exists_cons_hd.
  apply Exists_cons_tl, IH; auto. lia.
Qed.

(** ** add *)
Lemma add_throws_hollow alloc t l k s t1 l1 s1 :
  inv t l -> added Key Payload hashf matches c t l (computeHash hashf k) t1 l1 s1 ->
  internalAdd c alloc t (s, computeHash hashf k) = Ok (t1, (s1, computeHash hashf k), true) ->
  add_throws c alloc t (s, computeHash hashf k) = Ok (t1, true)
  /\ nelem t1 = nelem t + 1 /\ destroy t1 = Fault DoubleFree
  /\ found t1 s1 = Ok true /\ read c t1 s1 = Fault Uninit /\ remove c t1 s1 = Fault DoubleFree.
Proof.
  intros H Ha E. unfold add_throws. rewrite E. cbn [bind]. split; [reflexivity|].
  destruct Ha as (HI1 & [(e1 & He1 & L1) _] & _ & Ht1 & Hn & _).
  pose proof (computeHash_live Key hashf k) as Hh.
  assert (Lh : isLive (Entry (computeHash hashf k) (@Raw Payload)) = true).
  { unfold isLive, kRemovedHash. cbn [e_hash]. lia. }
  assert (Hlt : (s1 < length l1)%nat) by (apply nth_error_Some; congruence).
  split; [exact Hn|]. split; [|split; [|split]].
  - eapply destroy_hollow; [exact Ht1| | | |].
    + rewrite upd_length. apply (il_len _ _ _ _ _ _ HI1).
    + pose proof (cap_ok_pos _ (il_cap _ _ _ _ _ _ HI1)). lia.
    + apply Forall_upd; [|right; split; auto].
      eapply Forall_impl; [intros ? X; left; apply entry_ok_sane, X|]. apply all_entries, HI1.
    + apply Exists_upd; [exact Hlt|split; auto].
  - unfold found. rewrite Ht1. cbn [deref bind]. unfold slot_get. rewrite nth_error_upd_eq by exact Hlt.
    cbn [bind]. rewrite Lh. reflexivity.
  - unfold read. rewrite Ht1. cbn [deref bind]. unfold slot_get. rewrite nth_error_upd_eq by exact Hlt.
    cbn [bind]. unfold payload, assert_. rewrite Lh, andb_false_r. reflexivity.
  - unfold remove, removeEntry, found. rewrite Ht1. cbn [deref bind]. unfold slot_get.
    rewrite nth_error_upd_eq by exact Hlt. cbn [bind]. unfold assert_. rewrite Lh. rewrite andb_false_r. cbn [bind].
    unfold setRemoved, destruct_. rewrite Lh. reflexivity.
Qed.

(** ** resizing *)
Lemma rehash_throws_ok old : forall n l cp l' o,
  rehash c old l cp = Ok (l', o) -> Forall sane old -> Forall sane l -> (n < alive old)%nat ->
  exists l1 o1, rehash_throws c n old l cp = Ok (l1, o1, true)
    /\ length l1 = length l /\ Forall (fun e => sane e \/ hollow e) l1 /\ Exists hollow l1
    /\ alive o1 = (alive old - n)%nat.
Proof.
  induction old as [|e old IH]; intros n l cp l' o E Hs Hl Hn; [cbn in Hn; lia|].
  inversion Hs as [|? ? He Hs']; subst. cbn [rehash] in E. cbn [rehash_throws].
  destruct (isLive e) eqn:L.
  - assert (exists p, e_pay e = Val p) as [p Hp] by (unfold sane in He; rewrite L in He; exact He).
    destruct (insertUnique c l cp (e_hash e)) as [s| |]; try discriminate. cbn [bind] in *.
    destruct (slot_get l s) as [e1| |] eqn:Eg; try discriminate. cbn [bind] in *.
    assert (Hlt : (s < length l)%nat).
    { apply nth_error_Some. unfold slot_get in Eg. destruct (nth_error l s); congruence. }
    destruct (move_out c e) as [[p' e']| |] eqn:Em; try discriminate. cbn [bind] in *.
    unfold construct in E. cbn [e_pay setHash e_hash] in E.
    destruct (e_pay e1) eqn:Ep1; try discriminate. cbn [bind] in E.
    assert (A : alive (e :: old) = S (alive old)).
    { unfold alive. cbn [filter]. rewrite L, Hp. reflexivity. }
    destruct n as [|n].
    + unfold slot_set at 1. rewrite (proj2 (Nat.ltb_lt _ _) Hlt). cbn [bind].
      eexists _, _. split; [reflexivity|]. split; [apply upd_length|].
      assert (Hh : hollow (setHash e1 (e_hash e))).
      { split; [exact L|exact Ep1]. }
      split; [|split; [apply Exists_upd; auto|lia]].
      apply Forall_upd; [|right; exact Hh]. eapply Forall_impl; [|exact Hl]. auto.
    + unfold construct. cbn [e_pay setHash e_hash]. rewrite Ep1. cbn [bind].
      unfold slot_set in E |- *. rewrite (proj2 (Nat.ltb_lt _ _) Hlt) in *. cbn [bind] in *.
      assert (Em' : e' = Entry (e_hash e) Moved).
      { unfold move_out in Em. destruct (payload c e); cbn [bind] in Em; congruence. }
      subst e'. unfold destruct_ in E |- *. change (isLive (Entry (e_hash e) Moved)) with (isLive e) in *.
      rewrite L in *. cbn [e_pay bind e_hash] in *.
      destruct (rehash c old (upd l s (Entry (e_hash e) (Val p'))) cp) as [[l2 o2]| |] eqn:E2; try discriminate.
      destruct (IH n _ cp l2 o2 E2 Hs') as (l1 & o1 & E1 & Hlen & Hf & Hx & Ha).
      { apply Forall_upd; [exact Hl|]. unfold sane. change (isLive (Entry (e_hash e) (Val p'))) with (isLive e).
        rewrite L. exists p'. reflexivity. }
      { lia. }
      rewrite E1. cbn [bind]. eexists _, _. split; [reflexivity|]. split; [rewrite Hlen; apply upd_length|].
      split; [exact Hf|]. split; [exact Hx|]. rewrite A. unfold alive in *. cbn [filter].
      cbn [e_pay]. rewrite andb_false_r. lia.
  - assert (A : alive (e :: old) = alive old) by (unfold alive; cbn [filter]; rewrite L; reflexivity).
    unfold destruct_ in *. rewrite L in *. cbn [bind] in *.
    destruct (rehash c old l cp) as [[l2 o2]| |] eqn:E2; try discriminate.
    destruct (IH n l cp l2 o2 E2 Hs' Hl) as (l1 & o1 & E1 & Hlen & Hf & Hx & Ha); [lia|].
    rewrite E1. cbn [bind]. eexists _, _. split; [reflexivity|]. split; [exact Hlen|].
    split; [exact Hf|]. split; [exact Hx|]. rewrite A. unfold alive in *. cbn [filter]. rewrite L. exact Ha.
Qed.

Lemma alive_contents l : Forall sane l -> alive l = length (contents_l Payload l).
Proof.
  unfold alive, contents_l. induction 1 as [|e l He _ IH]; [reflexivity|]. cbn [filter flat_map].
  rewrite app_length, <- IH. unfold pay_of, sane in *. destruct (isLive e); [destruct He as [p ->]|]; reflexivity.
Qed.

Lemma changeCapacity_throws_ok n t l ncp t' : inv t l -> cap t' <> 0 ->
  changeCapacity c true t ncp = Ok (t', true) -> (n < N.to_nat (nelem t))%nat ->
  exists t1 leak, changeCapacity_throws c n t ncp = Ok (t1, leak, true) /\ destroy t1 = Fault DoubleFree
    /\ (alive leak + n = N.to_nat (nelem t))%nat /\ cap t1 = cap t' /\ nelem t1 = nelem t.
Proof.
  intros H Hc E Hn. unfold changeCapacity, changeCapacity_throws in *.
  destruct (assert_ (debug c) (ncp <=? kMaxCapacity c)) as [[]| |]; try discriminate. cbn [bind] in *.
  unfold createTable in *. destruct (assert_ (debug c) (ncp <=? kMaxCapacity c)) as [[]| |]; try discriminate.
  cbn [bind am_malloc_table deref] in *. rewrite (i_tbl _ _ _ _ _ _ _ _ H) in *. cbn [bind deref] in *.
  destruct (rehash c l (repeat (Entry kFreeHash Raw) (N.to_nat ncp)) ncp) as [[l' o]| |] eqn:Er; try discriminate.
  cbn [bind] in E. destruct (am_free o); try discriminate. cbn [bind] in E. injection E as <-. cbn [cap] in Hc.
  pose proof (inv_sane t l H) as Hs. pose proof (alive_contents l Hs) as Ha.
  pose proof (i_nelem _ _ _ _ _ _ _ _ H) as En.
  destruct (rehash_throws_ok l n _ ncp l' o Er Hs) as (l1 & o1 & E1 & Hlen & Hf & Hx & Hal).
  - apply Forall_forall. intros x Hx. apply repeat_spec in Hx. subst x. reflexivity.
  - lia.
  - rewrite E1. cbn [bind]. eexists _, _. split; [reflexivity|]. split; [|split; [lia|auto]].
    eapply destroy_hollow; [reflexivity| | | |]; cbn [cap]; auto. rewrite Hlen. apply repeat_length.
Qed.

Lemma checkDensity_throws_ok n t l t' : inv t l -> 16 <= kMaxCapacity c ->
  checkDensity c true t = Ok (t', true) -> cap t' <> cap t -> (n < N.to_nat (nelem t))%nat ->
  exists t1 leak, checkDensity_throws c n t = Ok (t1, leak, true) /\ destroy t1 = Fault DoubleFree
    /\ (alive leak + n = N.to_nat (nelem t))%nat /\ cap t1 = cap t' /\ nelem t1 = nelem t.
Proof.
  intros H Hk E Hne Hn.
  assert (Hc : cap t' <> 0).
  { destruct (checkDensity_ok _ _ _ _ _ _ true t l H Hk) as [(_&_&X)|[(_&_&X)|[(_&_&X)|[(_&X)|(t2&l2&X&Hi&_)]]]];
      rewrite E in X; try discriminate; injection X as ->; [congruence|].
    pose proof (cap_ok_pos _ (il_cap _ _ _ _ _ _ (i_l _ _ _ _ _ _ _ _ Hi))). lia. }
  unfold checkDensity, checkDensity_throws, shrink, grow in *. destruct (underloaded t).
  - destruct (N.shiftr (cap t) 1 <? mincap t); [injection E as <-; congruence|].
    eapply changeCapacity_throws_ok; eauto.
  - destruct (overloaded t); [|injection E as <-; congruence].
    destruct (kMaxCapacity c <=? cap t).
    + destruct (reportAllocationOverflow c); discriminate.
    + eapply changeCapacity_throws_ok; eauto.
Qed.

(** ** exceptions before the table is touched *)
Lemma entry_throws_ok t l k : inv t l ->
  exists r, xstep hashf matches dflt c t (EntryThrows k) = Ok (t, r)
    /\ ((exists q, In q (contents_l Payload l) /\ matches k q = true /\ r = Out (RFound q))
        \/ ((forall q, In q (contents_l Payload l) -> matches k q = false) /\ r = Threw)).
Proof.
  intros H. destruct (findForAdd_ok _ _ _ _ _ _ t l k H) as (s & E & (e & He & Hcase) & _).
  cbn [xstep]. rewrite E. cbn [bind fst]. rewrite (found_ok _ _ _ _ _ _ t l s e H He). cbn [bind].
  destruct Hcase as [(L & p & Hp & Hm & Hin)|(L & Hnone)]; rewrite L.
  - rewrite (read_ok _ _ _ _ _ _ t l s e p H He L Hp). cbn [bind]. eexists. split; [reflexivity|]. left. eauto.
  - eexists. split; [reflexivity|]. right. auto.
Qed.

Notation contents_l := (contents_l Payload).
Notation may_not := (fun _ : bool => False).

Lemma nofail_step f S o r S' : alloc_refused o = false -> ~ f true ->
  spec_step matches f S o r S' -> spec_step matches may_not S o r S'.
Proof.
  intros Ho Hf. assert (Hx : forall a, negb a = false -> f a -> False).
  { intros [] Ha Hm; [exact (Hf Hm)|discriminate]. }
  destruct o; cbn in *; unfold spec_add in *; intuition eauto.
Qed.

Lemma xrun_ok ops : forall t l n, inv t l -> 16 <= kMaxCapacity c ->
  Forall (op_ok matches) (plain ops) -> Forall (fun o => alloc_refused o = false) (plain ops) ->
  nelem t + ndel t <= n -> ~ over c (n + total_adds Key Payload (plain ops)) ->
  exists t' rs l', xrun hashf matches dflt c t ops = Ok (t', rs) /\ inv t' l' /\
    xspec_run matches may_not (contents_l l) ops rs (contents_l l').
Proof.
  induction ops as [|o ops IH]; intros t l n H Hk Hops Hall Hn Hov.
  - exists t, [], l. split; [reflexivity|]. split; [exact H|constructor].
  - destruct o as [o|k].
    + cbn [plain flat_map app] in *. fold (@plain Key Payload ops) in *.
      inversion Hops as [|? ? Ho Hops']; inversion Hall as [|? ? Ha Hall']; subst.
      change (total_adds Key Payload (o :: plain ops)) with (adds Key Payload o + total_adds Key Payload (plain ops)) in Hov.
      assert (Hlim : ~ limit Payload c t).
      { intros Hl. pose proof (limit_over _ _ _ _ _ _ t l n H Hk Hn Hl). unfold over in *. lia. }
      destruct (step_ok _ _ _ _ dflt _ Hpol m0 t l o H Hk Ho) as [(_&X&_)|[(Hr&_)|(t1 & r & l1 & E & H1 & Hs & Ht & _)]].
      * contradiction.
      * rewrite refused_eq in Hr. destruct Hr; [congruence|contradiction].
      * destruct (IH t1 l1 (n + adds Key Payload o) H1 Hk Hops' Hall') as (t' & rs & l' & E' & H' & Hs'); [lia| |].
        { intros X; apply Hov. unfold over in *. lia. }
        cbn [xrun xstep]. rewrite E. cbn [bind]. rewrite E'. cbn [bind].
        exists t', (Out r :: rs), l'. split; [reflexivity|]. split; [exact H'|].
        econstructor; [|exact Hs']. exists r. split; [reflexivity|].
        eapply nofail_step; [exact Ha| |exact Hs]. intros [_ [X|X]]; [discriminate|contradiction].
    + destruct (entry_throws_ok t l k H) as (r & E & Hr).
      destruct (IH t l n H Hk Hops Hall Hn Hov) as (t' & rs & l' & E' & H' & Hs').
      cbn [xrun]. rewrite E. cbn [bind]. rewrite E'. cbn [bind].
      exists t', (r :: rs), l'. split; [reflexivity|]. split; [exact H'|].
      econstructor; [|exact Hs']. split; [reflexivity|exact Hr].
Qed.

Lemma xlife_ok capacity ops : m0 = N.max 16 capacity ->
  config_ok c -> capacity_ok c capacity -> Forall (op_ok matches) (plain ops) ->
  Forall (fun o => alloc_refused o = false) (plain ops) -> ~ near_limit c (plain ops) ->
  exists t outs S, xlife hashf matches dflt c capacity ops = Ok (t, outs) /\ xspec_run matches may_not [] ops outs S.
Proof.
  intros Hm Hk Hc Hops Hall Hnl.
  destruct (init_ok _ _ hashf matches c m0 capacity Hm Hk Hc) as (t & E & Hi & _ & _ & En & Ed).
  unfold xlife. rewrite E. cbn [bind].
  destruct (xrun_ok ops t (fresh Payload (cap t)) 0 Hi Hk Hops Hall) as (t' & rs & l' & Er & H' & Hs); [lia| |].
  - rewrite N.add_0_l, (total_adds_filter Key Payload dflt). exact Hnl.
  - rewrite Er. cbn [bind]. rewrite (destroy_ok _ _ _ _ _ _ _ _ H'). cbn [bind].
    exists t', rs, (contents_l l'). split; [reflexivity|].
    unfold fresh in Hs. rewrite contents_repeat in Hs. exact Hs.
Qed.

(** ** reachable tables *)
Lemma add_refuted capacity t k s : m0 = N.max 16 capacity -> config_ok c ->
  reachable matches hashf dflt c capacity t ->
  findForAdd hashf matches c t k = Ok s -> found t (fst s) = Ok false ->
  forall alloc t1, add_throws c alloc t s = Ok (t1, true) ->
  elements t1 = elements t + 1 /\ destroy t1 = Fault DoubleFree /\
  exists s1, found t1 s1 = Ok true /\ read c t1 s1 = Fault Uninit /\ remove c t1 s1 = Fault DoubleFree.
Proof.
  intros Hm Hk Hr Ef Hf alloc t1 E1.
  destruct (reachable_inv _ _ hashf matches dflt c Hpol m0 capacity t Hm Hk Hr) as (l & H).
  destruct (findForAdd_ok _ _ _ _ _ _ t l k H) as (s0 & E & Hpost & Hins).
  rewrite Ef in E. injection E as ->. cbn [fst] in Hf.
  destruct Hpost as (e & He & Hcase). rewrite (found_ok _ _ _ _ _ _ t l s0 e H He) in Hf. injection Hf as L.
  assert (Hi : insert_pos Payload l (cap t) (computeHash hashf k) s0) by (apply Hins; eauto).
  unfold add_throws in E1.
  destruct (internalAdd_ok _ _ hashf matches c m0 alloc t l s0 _ H Hk Hi (computeHash_live Key hashf k))
    as [(_&_&X)|[(_&_&X)|[(_&_&X)|(t2 & l2 & s2 & X & Ha)]]]; rewrite X in E1; cbn [bind] in E1; try discriminate.
  injection E1 as <-.
  destruct (add_throws_hollow alloc t l k s0 t2 l2 s2 H Ha X) as (_ & Hn & Hd & H1 & H2 & H3).
  unfold elements. split; [exact Hn|]. split; [exact Hd|]. eauto.
Qed.
End HT.
