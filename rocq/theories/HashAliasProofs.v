From Verif Require Import Base BitsModel BitsProofs HashTableModel HashTableSpec HashTableProofs HashTableFacts
  HashTableMemModel HashTableMemSpec HashTableMemProofs HashAliasModel.
Local Open Scope N_scope.

Section P.
Variable Key Payload : Type.
Variable hashf : Key -> N.
Variable matches : Key -> Payload -> bool.
Variable dflt : Payload.
Variable c : cfg.
Variable h0 : heap.
Hypothesis Hh0 : heap_ok h0.
Notation R := (R Payload c h0).

Lemma R_live m h b : R m h -> existsb (fun x => Nat.eqb (fst x) b) (live h) = true -> (next h0 <= b)%nat -> ptr m = Some b.
Proof.
  intros (b0 & l & Hp & Hl & _ & _ & Hin) H Hb. rewrite Hl in H. cbn in H. rewrite Hp.
  destruct (Nat.eqb_spec b0 b) as [->|Hne]; [reflexivity|]. cbn in H. apply existsb_exists in H as ((x & y) & H & E).
  apply Nat.eqb_eq in E. cbn in E. subst x. apply (fresh_live _ Hh0) in H. lia.
Qed.
Lemma R_ptr m h : R m h -> exists b, ptr m = Some b /\ existsb (fun x => Nat.eqb (fst x) b) (live h) = true /\ (next h0 <= b < next h)%nat.
Proof.
  intros (b0 & l & Hp & Hl & _ & _ & Hin). exists b0. split; [exact Hp|]. split.
  - rewrite Hl. cbn. now rewrite Nat.eqb_refl.
  - apply Hin. now left.
Qed.

Lemma changeCapacity_ptr alloc m h n m' h' : R m h -> m_changeCapacity c alloc h m n = Ok (m', h', true) ->
  cap (obj m') = n /\ ptr m' <> ptr m.
Proof.
  intros HR. destruct (R_ptr _ _ HR) as (b & Hp & _ & Hb). unfold m_changeCapacity, m_createTable.
  destruct (assert_ _ _) as [[]|f|]; cbn [bind]; try discriminate.
  destruct (createTable _ _ _) as [[l|]|f|]; cbn [bind]; try discriminate.
  unfold h_malloc. cbn [bind].
  destruct (deref _) as [old|f|]; cbn [bind]; try discriminate.
  destruct (rehash _ _ _ _) as [[l' old']|f|]; cbn [bind]; try discriminate.
  destruct (am_free _) as [[]|f|]; cbn [bind]; try discriminate.
  destruct (h_free _ _) as [h2|f|]; cbn [bind]; try discriminate.
  intros [= <- <-]. cbn [obj cap ptr]. split; [reflexivity|]. rewrite Hp. intros [= E]. lia.
Qed.

Lemma checkDensity_ptr alloc m h m' h' : R m h -> 16 <= cap (obj m) <= 2 ^ 31 -> m_checkDensity c alloc h m = Ok (m', h', true) ->
  (m' = m /\ h' = h) \/ (cap (obj m') <> cap (obj m) /\ ptr m' <> ptr m).
Proof.
  intros HR Hc. unfold m_checkDensity, m_shrink, m_grow. change (2 ^ 31) with 2147483648 in Hc.
  destruct (underloaded _) eqn:U.
  - destruct (_ <? _); [intros [= <- <-]; auto|]. intros E. apply changeCapacity_ptr in E as [E1 E2]; auto. right.
    split; [|exact E2]. rewrite E1. rewrite N.shiftr_div_pow2. change (2 ^ 1) with 2.
    pose proof (N.div_lt (cap (obj m)) 2). lia.
  - destruct (overloaded _); [|intros [= <- <-]; auto].
    destruct (_ <=? _).
    { unfold reportAllocationOverflow. destruct (aborts c); discriminate. }
    intros E. apply changeCapacity_ptr in E as [E1 E2]; auto. right. split; [|exact E2]. rewrite E1.
    unfold ushl. rewrite N.shiftl_mul_pow2. change (2 ^ 1) with 2. change (2 ^ 32) with 4294967296.
    destruct (N.eq_dec (cap (obj m)) 2147483648) as [->|]; [vm_compute; discriminate|].
    rewrite N.mod_small by lia. lia.
Qed.

(** What internalAdd does to references into the table. *)
Lemma internalAdd_ptr alloc m h i m1 h1 i1 l :
  R m h -> 16 <= cap (obj m) <= 2 ^ 31 -> tbl (obj m) = Some l ->
  m_internalAdd c alloc h m i = Ok (m1, h1, i1, true) ->
  (cap (obj m1) = cap (obj m) /\ ptr m1 = ptr m /\ h1 = h /\ i1 = i /\
    exists e, nth_error l (fst i) = Some e /\ (debug c = true -> isLive e = false) /\ tbl (obj m1) = Some (upd l (fst i) (setHash e (snd i)))) \/
  (cap (obj m1) <> cap (obj m) /\ ptr m1 <> ptr m).
Proof.
  intros HR Hc Hl. unfold m_internalAdd, found. rewrite Hl. cbn [deref bind].
  unfold slot_get at 1. destruct (nth_error l (fst i)) as [e|] eqn:He; cbn [bind]; try discriminate.
  destruct (assert_ _ _) as [[]|f|] eqn:Ea; cbn [bind]; try discriminate.
  unfold slot_get at 1. rewrite He. cbn [bind].
  assert (Hd : debug c = true -> isLive e = false).
  { intros D. revert Ea. unfold assert_. rewrite D. destruct (isLive e); cbn; congruence. }
  assert (Hsame : forall m', tbl (obj m') = Some l -> cap (obj m') = cap (obj m) -> ptr m' = ptr m ->
    (do l1 <- deref (tbl (obj m'));
     do e1 <- slot_get l1 (fst i);
     do l2 <- slot_set l1 (fst i) (setHash e1 (snd i));
     Ok (MTable (Table (cap (obj m')) (uadd 32 (nelem (obj m')) 1) (ndel (obj m')) (Some l2) (mincap (obj m')))
        (ptr m'), h, i, true)) = Ok (m1, h1, i1, true) ->
    cap (obj m1) = cap (obj m) /\ ptr m1 = ptr m /\ h1 = h /\ i1 = i /\
    exists e, nth_error l (fst i) = Some e /\ (debug c = true -> isLive e = false) /\ tbl (obj m1) = Some (upd l (fst i) (setHash e (snd i)))).
  { intros m' Ht Hcp Hp. rewrite Ht. cbn [deref bind]. unfold slot_get. rewrite He. cbn [bind].
    unfold slot_set. destruct (_ <? _)%nat; cbn [bind]; [|discriminate]. intros [= <- <- <-]. cbn [obj cap ptr tbl].
    repeat split; auto. exists e. auto. }
  rewrite <- He.
  destruct (removed e); cbn [bind].
  { intros E. left. eapply (Hsame (MTable (Table (cap (obj m)) (nelem (obj m)) (usub 32 (ndel (obj m)) 1) (Some l) (mincap (obj m))) (ptr m))); eauto. }
  destruct (_ =? _).
  { unfold reportAllocationOverflow. destruct (aborts c); cbn [bind]; discriminate. }
  destruct (m_checkDensity c alloc h m) as [[[m' h'] ok]|f|] eqn:Ed; cbn [bind]; try discriminate.
  destruct ok; cbn [negb bind]; [|discriminate].
  apply checkDensity_ptr in Ed as [[-> ->]|[E1 E2]]; auto.
  - rewrite N.eqb_refl. cbn [negb bind]. intros E. left. now apply (Hsame m).
  - rewrite (proj2 (N.eqb_neq _ _) E1). cbn [negb].
    destruct (deref _) as [l'|f|]; cbn [bind]; try discriminate.
    destruct (insertUnique _ _ _ _) as [s|f|]; cbn [bind fst snd]; try discriminate.
    destruct (deref _) as [l3|f|]; cbn [bind]; try discriminate.
    destruct (slot_get l3 s) as [e1|f|]; cbn [bind]; try discriminate.
    destruct (slot_set l3 s _) as [l2|f|]; cbn [bind]; try discriminate.
    intros [= <- <- <-]. right. cbn [obj cap ptr]. auto.
Qed.

Hypothesis Hpol : policy_ok matches hashf.
Hypothesis Hcfg : config_ok c.

Lemma use_reachable capacity ops m h outs : capacity_ok c capacity -> Forall (op_ok matches) ops ->
  m_use hashf matches dflt c h0 capacity ops = Ok (m, h, outs) ->
  R m h /\ exists l, inv Key Payload hashf matches c (N.max 16 capacity) (obj m) l.
Proof.
  intros Hk Ho E.
  assert (Hi : exists t0, init c true (@ctor Payload) capacity = Ok (t0, true)).
  { destruct (init_ok unit Payload (fun _ => 0) (fun _ _ => true) c _ capacity eq_refl Hcfg Hk) as (t & Et & _). eauto. }
  destruct Hi as (t0 & Hi). split; [eapply use_one_block; eauto|].
  apply (reachable_inv Key Payload hashf matches dflt c Hpol _ capacity _ eq_refl Hcfg). split; [exact Hk|].
  revert E. unfold m_use. pose proof (init_follows Payload c h0 true capacity) as Hf.
  rewrite Hi in Hf. destruct Hf as (m0 & h1 & E & Eo & HR). rewrite E. cbn [bind]. intros Er.
  pose proof (run_follows Key Payload hashf matches dflt c h0 Hh0 ops m0 h1 HR) as Hr. unfold follows in Hr.
  rewrite Er in Hr. exists t0, ops, outs. split; [exact Hi|]. split; [exact Ho|]. rewrite Eo in Hr.
  destruct (run hashf matches dflt c t0 ops) as [[t' os]|f|]; try discriminate.
  destruct Hr as (m' & h' & [= <- <- <-] & <- & _). reflexivity.
Qed.

Lemma alias_ok capacity m h l k k' conv alloc p :
  R m h -> inv Key Payload hashf matches c capacity (obj m) l ->
  m_step hashf matches dflt c h m (OFind k') = Ok (m, h, RFound p) ->
  add_alias hashf matches c true h m k k' conv alloc = m_step hashf matches dflt c h m (OAdd k (conv p) alloc) /\
  match m_step hashf matches dflt c h m (OAdd k (conv p) alloc) with
  | Ok (m', h', r) =>
      (cap (obj m') = cap (obj m) -> add_alias hashf matches c false h m k k' conv alloc = Ok (m', h', r)) /\
      (cap (obj m') <> cap (obj m) -> add_alias hashf matches c false h m k k' conv alloc = Fault UseAfterFree)
  | Fault f => add_alias hashf matches c false h m k k' conv alloc = Fault f
  | Diverge => add_alias hashf matches c false h m k k' conv alloc = Diverge
  end.
Proof.
  intros HR HI. cbn [m_step]. unfold in_place. cbn [step].
  assert (Hcap : 16 <= cap (obj m) <= 2 ^ 31) by (apply cap_ok_pos; apply (il_cap _ _ _ _ _ _ (i_l _ _ _ _ _ _ _ _ HI))).
  pose proof (i_tbl _ _ _ _ _ _ _ _ HI) as Hl.
  unfold add_alias. destruct (find hashf matches c (obj m) k') as [s'|f|] eqn:Ef; cbn [bind]; try discriminate.
  destruct (found (obj m) s') as [b'|f|] eqn:Efd; cbn [bind]; try discriminate.
  destruct b'; cbn [bind]; [|discriminate].
  destruct (read c (obj m) s') as [q|f|] eqn:Erd; cbn [bind]; try discriminate. intros [= Em ->].
  destruct (R_ptr _ _ HR) as (b & Hp & Hlv & Hb).
  assert (Hs : exists e, nth_error l s' = Some e /\ isLive e = true /\ e_pay e = Val p).
  { revert Efd Erd. unfold found, read, slot_get. rewrite Hl. cbn [deref bind].
    destruct (nth_error l s') as [e|]; cbn [bind]; [|discriminate]. intros [= L]. unfold payload.
    destruct (assert_ _ _) as [[]|f|]; cbn [bind]; try discriminate. destruct (e_pay e) eqn:Ep; try discriminate.
    intros [= ->]. exists e. auto. }
  destruct Hs as (e' & He' & L' & Ep').
  assert (Hfollow : follow h m (ptr m, s') = Ok p).
  { unfold follow. cbn [fst snd]. rewrite Hp, Hlv, Nat.eqb_refl. cbn [andb]. rewrite Hl. cbn [deref bind].
    unfold slot_get. rewrite He'. cbn [bind]. now rewrite Ep'. }
  destruct (findForAdd hashf matches c (obj m) k) as [i|f|] eqn:Ei; cbn [bind]; try (split; reflexivity).
  destruct (found (obj m) (fst i)) as [bb|f|] eqn:Efi; cbn [bind]; try (split; reflexivity).
  destruct bb.
  { split; [reflexivity|]. destruct (read c (obj m) (fst i)) as [q|f|]; cbn [bind]; try reflexivity.
    split; [reflexivity|congruence]. }
  split.
  { unfold m_map_add_ref. rewrite Hfollow. reflexivity. }
  unfold m_add, m_add_ref.
  destruct (m_internalAdd c alloc h m i) as [[[[m1 h1] i1] ok]|f|] eqn:Ea; cbn [bind]; try reflexivity.
  pose proof (internalAdd_follows Key Payload matches dflt c h0 Hh0 alloc m h i HR) as [Hfa Hna].
  destruct ok; cbn [bind].
  2: { destruct (Hna _ _ _ Ea) as [-> ->]. split; [reflexivity|congruence]. }
  pose proof (internalAdd_ptr _ _ _ _ _ _ _ _ HR Hcap Hl Ea) as [(C1 & P1 & -> & -> & e & He & _ & Ht)|(C1 & P1)].
  - rewrite Ht. cbn [deref bind].
    assert (Hne : fst i <> s').
    { intros E. revert Efi. unfold found. rewrite Hl. cbn [deref bind]. unfold slot_get. rewrite E, He'. cbn. now rewrite L'. }
    destruct (slot_get _ (fst i)) as [e1|f|]; cbn [bind]; try reflexivity.
    assert (Hfollow1 : follow h m1 (ptr m, s') = Ok p).
    { unfold follow. cbn [fst snd]. rewrite Hp. rewrite <- P1 in Hp. rewrite Hp, Hlv, Nat.eqb_refl. cbn [andb].
      rewrite Ht. cbn [deref bind]. unfold slot_get. rewrite nth_error_upd_ne by exact Hne. rewrite He'. cbn [bind]. now rewrite Ep'. }
    rewrite Hfollow1. cbn [bind].
    destruct (construct e1 (conv p)) as [e2|f|]; cbn [bind]; try reflexivity.
    destruct (slot_set _ _ _) as [l2|f|]; cbn [bind]; try reflexivity.
    match goal with |- context [bind (read ?a ?b ?d) _] => destruct (read a b d) as [q|f|] end; cbn [bind]; try reflexivity.
    cbn [obj cap].
    split; [reflexivity|congruence].
  - (* resized *)
    assert (HR1 : R m1 h1).
    { unfold follows_add in Hfa. rewrite Ea in Hfa.
      destruct (internalAdd c alloc (obj m) i) as [[[t' i'] a]|f|]; try discriminate.
      now destruct Hfa as (m' & h' & [= <- <- <- <-] & _ & ?). }
    assert (Hdead : follow h1 m1 (ptr m, s') = Fault UseAfterFree).
    { unfold follow. cbn [fst]. rewrite Hp.
      destruct (existsb _ (live h1)) eqn:Hx; [|reflexivity].
      destruct (P1). rewrite Hp. apply (R_live m1 h1 b); auto. lia. }
    rewrite Hdead.
    (* the copying program cannot fail here *)
    assert (Hpos : exists hh, i = (fst i, hh) /\ insert_pos Payload l (cap (obj m)) hh (fst i) /\ 1 < hh < 2 ^ 32).
    { destruct (findForAdd_ok _ _ _ _ _ _ _ _ k HI) as (s & E & _ & Hins). rewrite Ei in E. injection E as ->.
      exists (computeHash hashf k). split; [reflexivity|]. cbn [fst] in *. split.
      - apply Hins. revert Efi. unfold found. rewrite Hl. cbn [deref bind]. unfold slot_get.
        destruct (nth_error l s) as [e|]; cbn [bind]; [|discriminate]. intros [= L]. eauto.
      - apply computeHash_live. }
    destruct Hpos as (hh & Ei' & Hpos & Hhh). rewrite Ei' in Ea. 
    unfold follows_add in Hfa. rewrite Ei' in Hfa.
    destruct (internalAdd_ok _ _ _ _ _ _ alloc (obj m) l (fst i) hh HI Hcfg Hpos Hhh) as
      [(_&_&E)|[(_&_&E)|[(_&_&E)|(t1 & l1 & s1 & E & Had)]]]; rewrite E in Hfa.
    1-3: try (rewrite Ea in Hfa; discriminate).
    { destruct Hfa as (m' & h' & E2 & _). rewrite Ea in E2. discriminate. }
    destruct Hfa as (m' & h' & E2 & <- & _). rewrite Ea in E2. injection E2 as <- <- ->.
    destruct Had as (HI1 & ((e1 & He1 & L1) & _) & _ & Ht & _).
    cbn [fst snd]. rewrite Ht. cbn [deref bind].
    assert (Hlt : (s1 < length l1)%nat) by (apply nth_error_Some; congruence).
    unfold slot_get at 1 2. rewrite nth_error_upd_eq by exact Hlt. cbn [bind construct e_pay e_hash].
    rewrite slot_set_ok by (rewrite upd_length; exact Hlt). cbn [bind].
    unfold read. cbn [obj tbl deref bind]. rewrite upd_twice.
    unfold slot_get. rewrite nth_error_upd_eq by exact Hlt. cbn [bind]. unfold payload.
    assert (Lh : isLive (Entry hh (Val (conv p))) = true) by (unfold isLive, kRemovedHash; cbn [e_hash]; lia).
    rewrite Lh, assert_true by reflexivity. cbn [bind e_pay obj cap]. split; [congruence|].
    intros _. rewrite nth_error_upd_eq by exact Hlt. reflexivity.
Qed.
End P.
