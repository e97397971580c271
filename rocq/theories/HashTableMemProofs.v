(** Proofs about the memory blocks of HashTable. *)
From Verif Require Import Base BitsModel HashTableModel HashTableSpec HashTableProofs HashTableMemModel HashTableMemSpec.
Local Open Scope N_scope.

Section Mem.
Variable Key Payload : Type.
Variable hashf : Key -> N.
Variable matches : Key -> Payload -> bool.
Variable dflt : Payload.
Variable c : cfg.
Variable h0 : heap.
Hypothesis Hh0 : heap_ok h0.
Notation table := (table Payload).

(** One block is held for the table, all the others acquired since h0 have been given back. *)
Definition R (m : mtable Payload) (h : heap) : Prop :=
  exists b l, ptr m = Some b /\ live h = (b, cap (obj m) * sizeof_entry c) :: live h0 /\
    freed h = l ++ freed h0 /\ NoDup (b :: l) /\
    (forall x, In x (b :: l) <-> (next h0 <= x < next h)%nat).

Lemma R_next m h : R m h -> (next h0 <= next h)%nat.
Proof. intros (b & l & _ & _ & _ & _ & H). specialize (proj1 (H b) (or_introl eq_refl)). lia. Qed.

Lemma fresh_live x y : In (x, y) (live h0) -> (x < next h0)%nat.
Proof. intros H. destruct Hh0 as [_ Hl]. rewrite Forall_forall in Hl. exact (Hl _ H). Qed.

Lemma filter_old b : (next h0 <= b)%nat ->
  filter (fun x : nat * N => negb (Nat.eqb (fst x) b)) (live h0) = live h0.
Proof.
  intros Hb. apply filter_all. intros [x y] Hin. apply fresh_live in Hin. cbn.
  destruct (Nat.eqb_spec x b); [lia|reflexivity].
Qed.

Lemma R_obj m h t : R m h -> cap t = cap (obj m) -> R (MTable t (ptr m)) h.
Proof. intros (b & l & H) E. exists b, l. cbn [obj ptr]. now rewrite E. Qed.

(** [mf] follows [f]. *)
Definition follows {A} (r : outcome (table * A)) (mr : outcome (mtable Payload * heap * A)) : Prop :=
  match r with
  | Ok (t', a) => exists m' h', mr = Ok (m', h', a) /\ obj m' = t' /\ R m' h'
  | Fault f => mr = Fault f
  | Diverge => mr = Diverge
  end.

Lemma changeCapacity_follows alloc m h n : R m h ->
  follows (changeCapacity c alloc (obj m) n) (m_changeCapacity c alloc h m n) /\
  (forall m' h', m_changeCapacity c alloc h m n = Ok (m', h', false) -> m' = m /\ h' = h).
Proof.
  intros HR. unfold changeCapacity, m_changeCapacity, m_createTable, follows.
  destruct (assert_ _ _) as [[]|f|]; cbn [bind]; try (split; [reflexivity|discriminate]).
  destruct (createTable c alloc n) as [[l|]|f|]; cbn [bind]; try (split; [reflexivity|discriminate]).
  2: { split; [exists m, h; auto|]. intros ? ? [= <- <-]. auto. }
  unfold h_malloc. cbn [bind].
  destruct (deref (tbl (obj m))) as [old|f|]; cbn [bind]; try (split; [reflexivity|discriminate]).
  destruct (rehash c old l n) as [[l' old']|f|]; cbn [bind]; try (split; [reflexivity|discriminate]).
  destruct (am_free old') as [[]|f|]; cbn [bind]; try (split; [reflexivity|discriminate]).
  destruct HR as (b & fl & Hp & Hl & Hf & Hnd & Hin). rewrite Hp. unfold h_free. cbn [live freed next].
  assert (Hb : (next h0 <= b < next h)%nat) by (apply Hin; now left).
  rewrite Hl. cbn [existsb fst].
  assert (E : Nat.eqb b b = true) by apply Nat.eqb_refl. rewrite E, orb_true_r. cbn [bind].
  split; [|discriminate].
  eexists _, _. split; [reflexivity|]. split; [reflexivity|].
  exists (next h), (b :: fl). cbn [obj ptr cap live freed next].
  split; [reflexivity|]. split; [|split; [now rewrite Hf|split]].
  - cbn [filter fst]. destruct (Nat.eqb_spec (next h) b); [lia|]. cbn [negb]. rewrite E. cbn [negb].
    f_equal. apply filter_old; lia.
  - constructor; [|exact Hnd]. intros H. apply Hin in H. lia.
  - intros x. cbn [In]. destruct (Hin x) as [H1 H2]. split.
    + intros [<-|H]; [lia|]. specialize (H1 H). lia.
    + intros H. destruct (Nat.eq_dec x (next h)) as [->|Hne]; [now left|]. right. apply H2. lia.
Qed.

Lemma checkDensity_follows alloc m h : R m h ->
  follows (checkDensity c alloc (obj m)) (m_checkDensity c alloc h m) /\
  (forall m' h', m_checkDensity c alloc h m = Ok (m', h', false) -> m' = m /\ h' = h).
Proof.
  intros HR. unfold checkDensity, m_checkDensity, shrink, m_shrink, grow, m_grow.
  destruct (underloaded (obj m)).
  { destruct (_ <? _); [|now apply changeCapacity_follows].
    split; [exists m, h; auto|discriminate]. }
  destruct (overloaded (obj m)).
  2: { split; [exists m, h; auto|discriminate]. }
  destruct (_ <=? _); [|now apply changeCapacity_follows].
  unfold reportAllocationOverflow. destruct (aborts c); cbn [bind]; (split; [cbn; eauto|]); try discriminate.
  intros ? ? [= <- <-]; auto.
Qed.

Definition follows_add (r : outcome (table * insert * bool)) (mr : outcome (mtable Payload * heap * insert * bool)) : Prop :=
  match r with
  | Ok (t', i, a) => exists m' h', mr = Ok (m', h', i, a) /\ obj m' = t' /\ R m' h'
  | Fault f => mr = Fault f
  | Diverge => mr = Diverge
  end.

Lemma internalAdd_follows alloc m h i : R m h ->
  follows_add (internalAdd c alloc (obj m) i) (m_internalAdd c alloc h m i) /\
  (forall m' h' i', m_internalAdd c alloc h m i = Ok (m', h', i', false) -> m' = m /\ h' = h).
Proof.
  intros HR. unfold internalAdd, m_internalAdd.
  destruct (found _ _) as [b|f|]; cbn [bind]; try (split; [reflexivity|discriminate]).
  destruct (assert_ _ _) as [[]|f|]; cbn [bind]; try (split; [reflexivity|discriminate]).
  destruct (deref _) as [l|f|]; cbn [bind]; try (split; [reflexivity|discriminate]).
  destruct (slot_get _ _) as [e|f|]; cbn [bind]; try (split; [reflexivity|discriminate]).
  assert (Hfin : forall (m1 : mtable Payload) (h1 : heap) (i1 : insert), R m1 h1 ->
    let r := (do l1 <- deref (tbl (obj m1));
              do e1 <- slot_get l1 (fst i1);
              do l2 <- slot_set l1 (fst i1) (setHash e1 (snd i1));
              Ok (Table (cap (obj m1)) (uadd 32 (nelem (obj m1)) 1) (ndel (obj m1)) (Some l2) (mincap (obj m1)), i1, true)) in
    let mr := (do l1 <- deref (tbl (obj m1));
              do e1 <- slot_get l1 (fst i1);
              do l2 <- slot_set l1 (fst i1) (setHash e1 (snd i1));
              Ok (MTable (Table (cap (obj m1)) (uadd 32 (nelem (obj m1)) 1) (ndel (obj m1)) (Some l2) (mincap (obj m1)))
                 (ptr m1), h1, i1, true)) in
    follows_add r mr /\ (forall m' h' i', mr = Ok (m', h', i', false) -> m' = m /\ h' = h)).
  { intros m1 h1 i1 H1. cbv zeta.
    destruct (deref _) as [l1|f|]; cbn [bind]; try (split; [reflexivity|discriminate]).
    destruct (slot_get _ _) as [e1|f|]; cbn [bind]; try (split; [reflexivity|discriminate]).
    destruct (slot_set _ _ _) as [l2|f|]; cbn [bind]; try (split; [reflexivity|discriminate]).
    split; [|discriminate]. eexists _, _. split; [reflexivity|]. split; [reflexivity|].
    now apply R_obj. }
  destruct (removed e); cbn [bind].
  { apply (Hfin (MTable (Table (cap (obj m)) (nelem (obj m)) (usub 32 (ndel (obj m)) 1) (tbl (obj m)) (mincap (obj m))) (ptr m))).
    now apply R_obj. }
  destruct (_ =? _).
  { unfold reportAllocationOverflow. destruct (aborts c); cbn [bind]; (split; [cbn; eauto|]); try discriminate.
    intros ? ? ? [= <- <- <-]; auto. }
  destruct (checkDensity_follows alloc m h HR) as [Hf Hsame].
  unfold follows in Hf. destruct (checkDensity c alloc (obj m)) as [[t' ok]|f|].
  2,3: rewrite Hf; cbn [bind]; split; [reflexivity|discriminate].
  destruct Hf as (m' & h' & E & <- & HR'). rewrite E in *. cbn [bind].
  destruct ok; cbn [negb bind].
  2: { split; [cbn; eauto|]. intros ? ? ? [= <- <- <-]. now apply Hsame. }
  destruct (cap (obj m') =? cap (obj m)); cbn [negb bind].
  { now apply Hfin. }
  destruct (deref (tbl (obj m'))) as [l'|f|]; cbn [bind]; try (split; [reflexivity|discriminate]).
  destruct (insertUnique c l' (cap (obj m')) (snd i)) as [s|f|]; cbn [bind]; try (split; [reflexivity|discriminate]).
  now apply (Hfin m' h' (s, snd i)).
Qed.

Lemma add_follows alloc m h i p : R m h ->
  follows_add (add c alloc (obj m) i p) (m_add c alloc h m i p) /\
  (forall m' h' i', m_add c alloc h m i p = Ok (m', h', i', false) -> m' = m /\ h' = h).
Proof.
  intros HR. unfold add, m_add. destruct (internalAdd_follows alloc m h i HR) as [Hf Hsame].
  unfold follows_add in Hf. destruct (internalAdd c alloc (obj m) i) as [[[t' i'] ok]|f|].
  2,3: rewrite Hf; cbn [bind]; split; [reflexivity|discriminate].
  destruct Hf as (m' & h' & E & <- & HR'). rewrite E in *. cbn [bind].
  destruct ok.
  2: { split; [cbn; eauto|]. intros ? ? ? [= <- <- <-]. now apply (Hsame _ _ i'). }
  destruct (deref _) as [l1|f|]; cbn [bind]; try (split; [reflexivity|discriminate]).
  destruct (slot_get _ _) as [e1|f|]; cbn [bind]; try (split; [reflexivity|discriminate]).
  destruct (construct e1 p) as [e2|f|]; cbn [bind]; try (split; [reflexivity|discriminate]).
  destruct (slot_set _ _ _) as [l2|f|]; cbn [bind]; try (split; [reflexivity|discriminate]).
  split; [|discriminate]. eexists _, _. split; [reflexivity|]. split; [reflexivity|].
  now apply R_obj.
Qed.

(** Operations that do not resize keep the capacity. *)
Lemma write_cap (t t' : table) s p : write c t s p = Ok t' -> cap t' = cap t.
Proof.
  unfold write. destruct (deref _); cbn [bind]; try discriminate.
  destruct (slot_get _ _); cbn [bind]; try discriminate.
  destruct (assign _ _ _); cbn [bind]; try discriminate.
  destruct (slot_set _ _ _); cbn [bind]; try discriminate. now intros [= <-].
Qed.
Lemma removeEntry_cap (t t' : table) s : removeEntry c t s = Ok t' -> cap t' = cap t.
Proof.
  unfold removeEntry. destruct (deref _); cbn [bind]; try discriminate.
  destruct (slot_get _ _); cbn [bind]; try discriminate.
  destruct (assert_ _ _); cbn [bind]; try discriminate.
  destruct (setRemoved _); cbn [bind]; try discriminate.
  destruct (slot_set _ _ _); cbn [bind]; try discriminate. now intros [= <-].
Qed.
Lemma iter_loop_cap pred n : forall (t t' : table) i acc r,
  iter_loop c n pred t i acc = Ok (t', r) -> cap t' = cap t.
Proof.
  induction n as [|n IH]; intros t t' i acc r; cbn [iter_loop]; [discriminate|].
  destruct (Nat.eqb _ _); [now intros [= <- <-]|].
  destruct (slot_get _ _) as [e|?|]; cbn [bind]; try discriminate.
  destruct (payload c e) as [p|?|]; cbn [bind]; try discriminate.
  destruct (if pred p then _ else _) as [t1|?|] eqn:E1; cbn [bind]; try discriminate.
  destruct (skip_dead _ _ _ _); cbn [bind]; try discriminate.
  intros E. rewrite (IH _ _ _ _ _ E).
  destruct (pred p); [now apply removeEntry_cap in E1|congruence].
Qed.
Lemma iterate_cap pred (t t' : table) r : iterate c pred t = Ok (t', r) -> cap t' = cap t.
Proof. unfold iterate. destruct (skip_dead _ _ _ _); cbn [bind]; try discriminate. apply iter_loop_cap. Qed.

Definition in_place_op (o : op Key Payload) : Prop :=
  match o with
  | OUpdate _ _ | OFind _ | OFindForAdd _ | ORemove _ | OClear | OEraseIf _ | OIterate | OElements => True
  | _ => False
  end.
Lemma step_in_place m h o : R m h ->
  in_place_op o ->
  follows (step hashf matches dflt c (obj m) o) (in_place Payload m h (step hashf matches dflt c (obj m) o)).
Proof.
  intros HR Ho. unfold in_place, follows.
  destruct (step hashf matches dflt c (obj m) o) as [[t' a]|f|] eqn:E; cbn [bind]; try reflexivity.
  eexists _, _. split; [reflexivity|]. split; [reflexivity|]. apply R_obj; [exact HR|].
  destruct o; try contradiction; cbn [step] in E.
  - destruct (find _ _ _ _ _) as [s|?|]; cbn [bind] in E; try discriminate.
    destruct (found _ _) as [[]|?|]; cbn [bind] in E; try discriminate; [|congruence].
    destruct (read _ _ _) as [q|?|]; cbn [bind] in E; try discriminate.
    destruct (write _ _ _ _) as [t1|?|] eqn:E1; cbn [bind] in E; try discriminate.
    injection E as <- <-. now apply write_cap in E1.
  - destruct (find _ _ _ _ _) as [s|?|]; cbn [bind] in E; try discriminate.
    destruct (found _ _) as [[]|?|]; cbn [bind] in E; try discriminate; [|congruence].
    destruct (read _ _ _) as [q|?|]; cbn [bind] in E; try discriminate. congruence.
  - destruct (findForAdd _ _ _ _ _) as [s|?|]; cbn [bind] in E; try discriminate.
    destruct (found _ _) as [[]|?|]; cbn [bind] in E; try discriminate; [|congruence].
    destruct (read _ _ _) as [q|?|]; cbn [bind] in E; try discriminate. congruence.
  - unfold removeIfExists, remove in E.
    destruct (find _ _ _ _ _) as [s|?|]; cbn [bind] in E; try discriminate.
    destruct (found _ _) as [[]|?|]; cbn [bind] in E; try discriminate; [|congruence].
    destruct (assert_ _ _) as [[]|?|]; cbn [bind] in E; try discriminate.
    destruct (removeEntry _ _ _) as [t1|?|] eqn:E1; cbn [bind] in E; try discriminate.
    injection E as <- <-. now apply removeEntry_cap in E1.
  - unfold clear in E. destruct (for_entries _ _); cbn [bind] in E; try discriminate. now injection E as <- <-.
  - destruct (iterate _ _ _) as [[t1 l]|?|] eqn:E1; cbn [bind] in E; try discriminate.
    injection E as <- <-. now apply iterate_cap in E1.
  - destruct (iterate _ _ _) as [[t1 l]|?|] eqn:E1; cbn [bind] in E; try discriminate.
    injection E as <- <-. now apply iterate_cap in E1.
  - congruence.
Qed.



Lemma step_not_failed t o t' :
  in_place_op o ->
  step hashf matches dflt c t o = Ok (t', RFailed) -> False.
Proof.
  intros Ho E. destruct o; try contradiction; cbn [step] in E.
  - destruct (find _ _ _ _ _) as [s|?|]; cbn [bind] in E; try discriminate.
    destruct (found _ _) as [[]|?|]; cbn [bind] in E; try discriminate.
    destruct (read _ _ _) as [q|?|]; cbn [bind] in E; try discriminate.
    destruct (write _ _ _ _) as [t1|?|]; cbn [bind] in E; discriminate.
  - destruct (find _ _ _ _ _) as [s|?|]; cbn [bind] in E; try discriminate.
    destruct (found _ _) as [[]|?|]; cbn [bind] in E; try discriminate.
    destruct (read _ _ _) as [q|?|]; cbn [bind] in E; discriminate.
  - destruct (findForAdd _ _ _ _ _) as [s|?|]; cbn [bind] in E; try discriminate.
    destruct (found _ _) as [[]|?|]; cbn [bind] in E; try discriminate.
    destruct (read _ _ _) as [q|?|]; cbn [bind] in E; discriminate.
  - destruct (removeIfExists _ _ _ _ _); cbn [bind] in E; discriminate.
  - destruct (clear _); cbn [bind] in E; discriminate.
  - destruct (iterate _ _ _) as [[? ?]|?|]; cbn [bind] in E; discriminate.
  - destruct (iterate _ _ _) as [[? ?]|?|]; cbn [bind] in E; discriminate.
  - discriminate.
Qed.

Lemma step_follows m h o : R m h ->
  follows (step hashf matches dflt c (obj m) o) (m_step hashf matches dflt c h m o) /\
  (forall m' h', m_step hashf matches dflt c h m o = Ok (m', h', RFailed) -> m' = m /\ h' = h).
Proof.
  intros HR.
  assert (Hin : forall o, in_place_op o ->
    follows (step hashf matches dflt c (obj m) o) (in_place Payload m h (step hashf matches dflt c (obj m) o)) /\
    (forall m' h', in_place Payload m h (step hashf matches dflt c (obj m) o) = Ok (m', h', RFailed) -> m' = m /\ h' = h)).
  { intros o' Ho. split; [now apply step_in_place|]. intros m' h'. unfold in_place.
    destruct (step hashf matches dflt c (obj m) o') as [[t' a]|?|] eqn:E; cbn [bind]; try discriminate.
    intros [= _ _ ->]. exfalso. exact (step_not_failed _ _ _ Ho E). }
  destruct o; cbn [m_step]; try (apply Hin; exact I).
  - (* OAdd *)
    cbn [step]. destruct (findForAdd _ _ _ _ _) as [i|f|]; cbn [bind]; try (split; [reflexivity|discriminate]).
    destruct (found _ _) as [b|f|]; cbn [bind]; try (split; [reflexivity|discriminate]).
    destruct b.
    { destruct (read _ _ _) as [q|f|]; cbn [bind]; try (split; [reflexivity|discriminate]).
      split; [cbn; eauto|discriminate]. }
    destruct (add_follows alloc m h i p HR) as [Hf Hsame]. unfold follows_add in Hf.
    destruct (add c alloc (obj m) i p) as [[[t' i'] ok]|f|].
    2,3: rewrite Hf; cbn [bind]; split; [reflexivity|discriminate].
    destruct Hf as (m' & h' & E & <- & HR'). rewrite E in *. cbn [bind]. destruct ok.
    { destruct (read _ _ _) as [q|f|]; cbn [bind]; try (split; [reflexivity|discriminate]).
      split; [cbn; eauto|discriminate]. }
    split; [cbn; eauto|]. intros ? ? [= <- <-]. now apply (Hsame _ _ i').
  - (* OAddInPlace *)
    cbn [step]. destruct (findForAdd _ _ _ _ _) as [i|f|]; cbn [bind]; try (split; [reflexivity|discriminate]).
    destruct (found _ _) as [b|f|]; cbn [bind]; try (split; [reflexivity|discriminate]).
    destruct b.
    { destruct (read _ _ _) as [q|f|]; cbn [bind]; try (split; [reflexivity|discriminate]).
      split; [cbn; eauto|discriminate]. }
    destruct (add_follows alloc m h i dflt HR) as [Hf Hsame]. unfold follows_add in Hf.
    destruct (add c alloc (obj m) i dflt) as [[[t' i'] ok]|f|].
    2,3: rewrite Hf; cbn [bind]; split; [reflexivity|discriminate].
    destruct Hf as (m' & h' & E & <- & HR'). rewrite E in *. cbn [bind]. destruct ok.
    { destruct (write _ _ _ _) as [t''|f|] eqn:Ew; cbn [bind]; try (split; [reflexivity|discriminate]).
      destruct (read _ _ _) as [q|f|]; cbn [bind]; try (split; [reflexivity|discriminate]).
      split; [|discriminate]. eexists _, _. split; [reflexivity|]. split; [reflexivity|].
      apply R_obj; [exact HR'|]. now apply write_cap in Ew. }
    split; [cbn; eauto|]. intros ? ? [= <- <-]. now apply (Hsame _ _ i').
  - (* OSet *)
    cbn [step]. destruct (findForAdd _ _ _ _ _) as [i|f|]; cbn [bind]; try (split; [reflexivity|discriminate]).
    destruct (found _ _) as [b|f|]; cbn [bind]; try (split; [reflexivity|discriminate]).
    destruct b.
    { destruct (read _ _ _) as [q|f|]; cbn [bind]; try (split; [reflexivity|discriminate]).
      destruct (write _ _ _ _) as [t''|f|] eqn:Ew; cbn [bind]; try (split; [reflexivity|discriminate]).
      split; [|discriminate]. eexists _, _. split; [reflexivity|]. split; [reflexivity|].
      apply R_obj; [exact HR|]. now apply write_cap in Ew. }
    destruct (add_follows alloc m h i p HR) as [Hf Hsame]. unfold follows_add in Hf.
    destruct (add c alloc (obj m) i p) as [[[t' i'] ok]|f|].
    2,3: rewrite Hf; cbn [bind]; split; [reflexivity|discriminate].
    destruct Hf as (m' & h' & E & <- & HR'). rewrite E in *. cbn [bind]. destruct ok.
    { destruct (read _ _ _) as [q|f|]; cbn [bind]; try (split; [reflexivity|discriminate]).
      split; [cbn; eauto|discriminate]. }
    split; [cbn; eauto|]. intros ? ? [= <- <-]. now apply (Hsame _ _ i').
  - (* OCheckDensity *)
    cbn [step]. destruct (checkDensity_follows alloc m h HR) as [Hf Hsame]. unfold follows in Hf.
    destruct (checkDensity c alloc (obj m)) as [[t' ok]|f|].
    2,3: rewrite Hf; cbn [bind]; split; [reflexivity|discriminate].
    destruct Hf as (m' & h' & E & <- & HR'). rewrite E in *. cbn [bind].
    split; [cbn; eauto|]. intros m2 h2. destruct ok; [discriminate|]. intros [= <- <-]. now apply Hsame.
  - (* OMove *)
    cbn [step]. unfold m_move_ctor, m_destroy.
    destruct (move_ctor (obj m)) as [n o'] eqn:E. cbn [obj ptr].
    destruct (destroy o') as [[]|f|]; cbn [bind]; try (split; [reflexivity|discriminate]).
    cbn [h_free bind]. split; [|discriminate].
    eexists _, _. split; [reflexivity|]. split; [reflexivity|]. apply R_obj; [exact HR|].
    unfold move_ctor in E. now injection E as <- _.
Qed.

Lemma run_follows ops : forall m h, R m h ->
  follows (run hashf matches dflt c (obj m) ops) (m_run hashf matches dflt c h m ops).
Proof.
  induction ops as [|o ops IH]; intros m h HR; cbn [run m_run].
  { cbn. eauto. }
  destruct (step_follows m h o HR) as [Hf _]. unfold follows in Hf.
  destruct (step hashf matches dflt c (obj m) o) as [[t' r]|f|].
  2,3: rewrite Hf; cbn [bind]; reflexivity.
  destruct Hf as (m' & h' & E & <- & HR'). rewrite E. cbn [bind].
  specialize (IH m' h' HR'). unfold follows in *.
  destruct (run hashf matches dflt c (obj m') ops) as [[t'' rs]|f|].
  2,3: rewrite IH; cbn [bind]; reflexivity.
  destruct IH as (m'' & h'' & E' & <- & HR''). rewrite E'. cbn [bind]. eauto.
Qed.

Lemma init_follows alloc capacity :
  match init c alloc (@ctor Payload) capacity with
  | Ok (t, ok) => exists m h, m_init c alloc h0 m_ctor capacity = Ok (m, h, ok) /\ obj m = t /\
      (if ok then R m h else h = h0 /\ ptr m = None)
  | Fault f => m_init c alloc h0 (@m_ctor Payload) capacity = Fault f
  | Diverge => m_init c alloc h0 (@m_ctor Payload) capacity = Diverge
  end.
Proof.
  unfold init, m_init, m_createTable. cbv zeta.
  destruct (capacity <? kMinCapacity); [|destruct (kMaxCapacity c <? capacity)];
    [destruct (assert_ _ _) as [[]|f|]; cbn [bind]; try reflexivity;
     destruct (createTable c alloc _) as [[l|]|f|]; cbn [bind]; try reflexivity
    | unfold reportAllocationOverflow; destruct (aborts c); cbn [bind]; [reflexivity|];
      eexists _, _; split; [reflexivity|]; split; [reflexivity|]; split; reflexivity
    | destruct (assert_ _ _) as [[]|f|]; cbn [bind]; try reflexivity;
     destruct (createTable c alloc _) as [[l|]|f|]; cbn [bind]; try reflexivity].
  all: unfold h_malloc; cbn [bind]; eexists _, _; (split; [reflexivity|]); (split; [reflexivity|]);
    try (split; reflexivity).
  all: exists (next h0), []; cbn [obj ptr cap live freed next];
    (split; [reflexivity|]); (split; [reflexivity|]); (split; [reflexivity|]); split;
    [constructor; [intros []|constructor] | intros x; cbn [In]; clear - x; lia].
Qed.

Lemma R_returned m h : R m h ->
  exists h', h_free h (ptr m) = Ok h' /\ all_returned h0 h'.
Proof.
  intros (b & l & Hp & Hl & Hf & Hnd & Hin). rewrite Hp. cbn [h_free].
  assert (Hb : (next h0 <= b < next h)%nat) by (apply Hin; now left).
  rewrite Hl. cbn [existsb fst]. rewrite Nat.eqb_refl. cbn [orb].
  eexists. split; [reflexivity|]. unfold all_returned. cbn [live freed next filter fst].
  rewrite Nat.eqb_refl. cbn [negb]. split; [apply filter_old; lia|].
  exists (b :: l). split; [now rewrite Hf|]. split; [exact Hnd|exact Hin].
Qed.

Lemma life_follows capacity ops :
  match life hashf matches dflt c capacity ops with
  | Ok (t, outs) =>
      (exists m h, m_use hashf matches dflt c h0 capacity ops = Ok (m, h, outs) /\ obj m = t) /\
      ((exists t0, init c true (@ctor Payload) capacity = Ok (t0, true)) ->
       exists h', m_life hashf matches dflt c h0 capacity ops = Ok (h', outs) /\ all_returned h0 h')
  | Fault f => m_life hashf matches dflt c h0 capacity ops = Fault f
  | Diverge => m_life hashf matches dflt c h0 capacity ops = Diverge
  end.
Proof.
  unfold life, m_life, m_use. pose proof (init_follows true capacity) as Hi.
  destruct (init c true (@ctor Payload) capacity) as [[t ok]|f|]; cbn [bind].
  2,3: rewrite Hi; reflexivity.
  destruct Hi as (m & h & E & <- & HR). rewrite E. cbn [bind]. destruct ok.
  2: { split; [eauto|]. intros (t0 & [=]). }
  pose proof (run_follows ops m h HR) as Hr. unfold follows in Hr.
  destruct (run hashf matches dflt c (obj m) ops) as [[t' outs]|f|]; cbn [bind].
  2,3: rewrite Hr; reflexivity.
  destruct Hr as (m' & h' & E' & <- & HR'). rewrite E'. cbn [bind]. unfold m_destroy.
  destruct (destroy (obj m')) as [[]|f|]; cbn [bind]; try reflexivity.
  split; [eauto|]. intros _.
  destruct (R_returned _ _ HR') as (h'' & E'' & Hret). rewrite E''. cbn [bind]. eauto.
Qed.

Lemma use_one_block capacity ops m h outs t0 : init c true (@ctor Payload) capacity = Ok (t0, true) ->
  m_use hashf matches dflt c h0 capacity ops = Ok (m, h, outs) -> R m h.
Proof.
  intros Hi. unfold m_use. pose proof (init_follows true capacity) as Hf.
  rewrite Hi in Hf. destruct Hf as (m0 & h1 & E & Eo & HR). rewrite E. cbn [bind].
  pose proof (run_follows ops m0 h1 HR) as Hr. unfold follows in Hr.
  destruct (run hashf matches dflt c (obj m0) ops) as [[t' os]|f|].
  - destruct Hr as (m' & h' & -> & _ & HR'). now intros [= <- <- <-].
  - rewrite Hr. discriminate.
  - rewrite Hr. discriminate.
Qed.

End Mem.
