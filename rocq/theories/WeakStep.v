(** Every step of the weak-memory machine is fault-free, keeps the invariant, and corresponds to steps of the
    sequentially consistent machine with the same observations. *)
From Verif Require Import Base AtomicRefModel AtomicRefSpec AtomicRefProofs AtomicRefStep WeakModel WeakSpec WeakInv WeakFrame.
Local Open Scope N_scope.

Section Step.
Variables debug cas_acquire reuse ops : bool.
Hypothesis Hyp : cas_acquire = true \/ reuse = false \/ ops = false.
Notation tinv := (tinv reuse ops). Notation cinv := (cinv reuse). Notation winv := (winv reuse ops).
Notation wallowed := (wallowed reuse ops). Notation wstep := (wstep debug cas_acquire).
Notation run := (run Plain debug). Notation step := (step Plain debug). Notation legal := (legal Plain debug).

(** ** The sequentially consistent side *)
Definition follows (s : state) (w' : wstate) (o : list obs) : Prop :=
  exists es s', legal s es /\ run s es = Ok (s', o) /\ rel w' s' /\ inv Plain s' /\
    (forall t c, In (EStart t (ADtor c)) es -> nth_error (wcells w') c = Some WNone /\ exists y, nth_error (cells s) c = Some (CLive y)).
Lemma follows_none s w' : inv Plain s -> rel w' s -> follows s w' [].
Proof. intros I R. exists [], s. split; [constructor|]. split; [reflexivity|]. split; [exact R|]. split; [exact I|]. intros t c []. Qed.
Lemma dtor_clears s t c s' o w' : step s (EStart t (ADtor c)) = Ok (s', o) -> rel w' s' -> nth_error (wcells w') c = Some WNone.
Proof.
  intros E R. cbn [AtomicRefModel.step] in E. destruct (slot_get (threads s) t) as [th| |]; cbn [bind] in E; try discriminate. cbn [start] in E.
  destruct (load s c) as [x| |]; cbn [bind] in E; try discriminate. unfold setcell, setpc, slot_set in E.
  destruct (Nat.ltb_spec c (length (cells s))) as [Lc|]; cbn [bind] in E; try discriminate. cbn [threads] in E.
  destruct (t <? length (threads s))%nat; cbn [bind] in E; try discriminate. injection E as <- _.
  assert (X : nth_error (upd (cells s) c CNone) c = Some CNone) by now apply nth_error_upd_eq.
  pose proof (r_ce _ _ R) as Ec. cbn [cells] in Ec. rewrite Ec, nth_error_map in X. destruct (nth_error (wcells w') c) as [[| |]|]; cbn in X; try discriminate. reflexivity.
Qed.
Lemma follows_one s w' e s' o : inv Plain s -> allowed s e -> step s e = Ok (s', o) -> rel w' s' -> follows s w' o.
Proof.
  intros I A E R. exists [e], s'. split; [|split].
  - constructor; [exact A|]. intros. constructor.
  - cbn [AtomicRefModel.run]. rewrite E. cbn [bind]. now rewrite app_nil_r.
  - split; [exact R|]. destruct (step_ok Plain debug s e I A) as (s1 & o1 & E1 & I1). rewrite E in E1. injection E1 as -> ->. split; [exact I1|].
    intros t c [->|[]]. split; [eapply dtor_clears; eauto|]. cbn in A. destruct A as (? & _ & _ & A & _). exact A.
Qed.
Lemma follows_two s w' t s1 s2 o : let e1 := ECont t in let e2 := ECont t in
  inv Plain s -> allowed s e1 -> step s e1 = Ok (s1, []) -> allowed s1 e2 -> step s1 e2 = Ok (s2, o) -> rel w' s2 -> follows s w' o.
Proof.
  intros e1 e2 I A1 E1 A2 E2 R. exists [e1; e2], s2. split; [|split].
  - constructor; [exact A1|]. intros s' o' E. rewrite E1 in E. injection E as <- <-. constructor; [exact A2|]. intros. constructor.
  - cbn [AtomicRefModel.run]. rewrite E1. cbn [bind]. rewrite E2. cbn [bind]. now rewrite app_nil_r.
  - split; [exact R|]. destruct (step_ok Plain debug s e1 I A1) as (s' & o' & E' & I'). rewrite E1 in E'. injection E' as <- <-.
    destruct (step_ok Plain debug s1 e2 I' A2) as (s3 & o3 & E3 & I3). rewrite E2 in E3. injection E3 as -> ->. split; [exact I3|].
    intros u c [X|[X|[]]]; discriminate.
Qed.

Lemma rel_upd w w' s t th' hp' cells' fr' de' : rel w s -> wths w' = upd (wths w) t th' -> cells' = map erase_cell (wcells w') ->
  (forall a, hp' a = option_map (erase_ob w') (wheap w' a)) -> fr' = wfresh w' -> de' = wdeleted w' ->
  rel w' (State hp' cells' (upd (threads s) t (erase_th th')) fr' de').
Proof.
  intros R Eth Ec Eh Ef Ed. split; cbn [threads cells hp fresh deleted]; auto. rewrite Eth, map_upd. now rewrite (r_th w s R).
Qed.
Lemma rel_heap_same w w' s : rel w s -> wheap w' = wheap w -> counts w' = counts w -> forall a, hp s a = option_map (erase_ob w') (wheap w' a).
Proof. intros R E1 E2 a. rewrite (r_hp w s R), E1. unfold erase_ob. now rewrite E2. Qed.
Lemma rel_heap_obj w w' s a ob ob' c : inv Plain s -> rel w s -> wheap w a = Some ob -> wheap w' = wset (wheap w) a (Some ob') -> wser ob' = wser ob ->
  (forall n, n <> wser ob -> counts w' n = counts w n) -> N.to_nat (hv (counts w' (wser ob))) = c ->
  forall b, hset (hp s) a (Some (Tobj (wser ob) c false)) b = option_map (erase_ob w') (wheap w' b).
Proof.
  intros I R Ha E1 Es E2 Ec b. rewrite E1. unfold hset, wset. destruct (N.eqb_spec a b) as [<-|Hne].
  - cbn [option_map]. unfold erase_ob. now rewrite Es, Ec.
  - rewrite (r_hp w s R). destruct (wheap w b) as [x|] eqn:Hx; cbn [option_map]; [|reflexivity]. unfold erase_ob. rewrite E2; [reflexivity|].
    intros E. apply Hne. symmetry. eapply ser_distinct; eauto.
Qed.

(** ** The weak side *)
Lemma put_thread_ok w t th p l k : nth_error (wths w) t = Some th ->
  put_thread w t p l k = Ok (W (wheap w) (counts w) (wcells w) (upd (wths w) t (WThread p l k)) (wfresh w) (wdeleted w) (used w) (freed w) (S (clock w))).
Proof. intros H. unfold put_thread. rewrite slot_set_ok; [reflexivity|]. apply nth_error_Some. congruence. Qed.
Lemma put_cell_ok w c x y : nth_error (wcells w) c = Some y ->
  put_cell w c x = Ok (W (wheap w) (counts w) (upd (wcells w) c x) (wths w) (wfresh w) (wdeleted w) (used w) (freed w) (clock w)).
Proof. intros H. unfold put_cell. rewrite slot_set_ok; [reflexivity|]. apply nth_error_Some. congruence. Qed.
Lemma access_ok w k a ob : wheap w a = Some ob -> k (ctor ob) = true -> access w k a = Ok (WObj (wser ob) (ctor ob) (clock w :: accs ob)).
Proof. intros H K. unfold access. now rewrite H, K. Qed.
Lemma access_cell_ok w k c e us h : nth_error (wcells w) c = Some (WLive e us h) -> k e = true -> access_cell w k c = Ok (e, clock w :: us, h).
Proof. intros H K. unfold access_cell. rewrite (slot_get_ok _ _ _ H). cbn [bind]. now rewrite K. Qed.

(** Addresses a thread deals with are alive and their construction is known. *)
Lemma stake_ob w s t th a : inv Plain s -> rel w s -> winv w -> nth_error (wths w) t = Some th -> stake (wpc th) (wheld th) a ->
  a <> 0 \/ In a (wheld th) -> exists ob, wheap w a = Some ob /\ know th (ctor ob) = true /\ a <> 0.
Proof.
  intros I R V H Hs Ha. assert (N0 : a <> 0).
  { destruct Ha as [|Ha]; [auto|]. destruct (held_live Plain s t (erase_th th) a I (erase_thread w s t th R H) Ha) as (ob & E & _).
    now destruct (live_facts Plain s a ob I E). }
  destruct (wheap w a) as [ob|] eqn:E; [|exfalso; exact (stake_live w s t th a I R H Hs N0 E)].
  exists ob. split; [auto|]. split; [|auto]. exact (t_stake _ _ _ _ (w_t _ _ _ V t th H) a ob Hs E).
Qed.

(** Updating the thread's own part of the invariant. *)
Lemma tinv_new w w' p l k p' l' k' : tinv w (WThread p l k) -> vle k k' ->
  (forall b ob', wheap w' b = Some ob' -> stake p' l' b -> exists ob, wheap w b = Some ob /\ ctor ob' = ctor ob /\ (stake p l b \/ k' (ctor ob) = true)) ->
  (forall a ob, closing p' a -> wheap w' a = Some ob -> forall x, In x (accs ob) -> k' x = true) ->
  (forall a q ob, p' = RelAssert a q -> wheap w' a = Some ob -> exists m h, counts w' (wser ob) = m :: h /\ k' (mid m) = true) ->
  (forall c v, sec_val p' = Some (c, v) -> exists e us m h, nth_error (wcells w') c = Some (WLive e us (m :: h)) /\ k' (mid m) = true) ->
  (forall c e us h, wuses p' c -> nth_error (wcells w') c = Some (WLive e us h) -> k' e = true) ->
  (forall c o old, p' = LkCas c o old -> N.even old = true /\ (reuse = false -> old <> 0 -> exists x, used w' old = Some x /\ k' x = true)) ->
  (ops = false -> match p' with LkLoad _ _ | LkCas _ _ _ => False | _ => True end) ->
  tinv w' (WThread p' l' k').
Proof.
  intros T Hk Hs H2 H3 H4 H5 H6 H7. split; cbn [wpc wheld know]; auto.
  intros b ob' Hb Ho. destruct (Hs b ob' Ho Hb) as (ob & Hob & Ec & [St|K]); rewrite Ec; [|exact K]. apply Hk. exact (t_stake _ _ _ _ T b ob St Hob).
Qed.
(** A thread that is not in the middle of anything but dealing with addresses. *)
Lemma tinv_plain w w' p l k p' l' k' : tinv w (WThread p l k) -> vle k k' ->
  (forall b ob', wheap w' b = Some ob' -> stake p' l' b -> exists ob, wheap w b = Some ob /\ ctor ob' = ctor ob /\ (stake p l b \/ k' (ctor ob) = true)) ->
  match p' with Idle | NewP _ | Add _ | RelSub _ _ | CtAdd _ _ | DtA _ => True | _ => False end ->
  (forall c e us h, wuses p' c -> nth_error (wcells w') c = Some (WLive e us h) -> k' e = true) ->
  tinv w' (WThread p' l' k').
Proof.
  intros T Hk Hs Hp Hu. eapply tinv_new; eauto; destruct p'; cbn; intros; try contradiction; try discriminate; auto.
Qed.

(** ** Read-modify-writes of a counter *)
Definition newmsg (w : wstate) (k : view) (m : msg) (f : N -> N) : msg := Msg (clock w) (f (mval m)) (vjoin (mview m) (acquire k (clock w) m)) true.
Definition newobj (w : wstate) (ob : wobj) : wobj := WObj (wser ob) (ctor ob) (clock w :: accs ob).
Lemma rmw_count_ok w k a ob i f : winv w -> wheap w a = Some ob -> k (ctor ob) = true -> obj_hist w a (fun h => rmw_ok k h i) ->
  exists m h, counts w (wser ob) = m :: h /\
    rmw_count w k a i f = Ok (put_obj w a (newobj w ob) (newmsg w k m f :: m :: h), acquire k (clock w) m, mval m).
Proof.
  intros V Ha K C. pose proof (w_o _ _ _ V a ob Ha) as O. specialize (C ob Ha).
  pose proof (rmw_latest k _ i (o_tail _ _ _ O) C) as ->. destruct (counts w (wser ob)) as [|m h] eqn:E; [now destruct (o_ne _ _ _ O)|].
  exists m, h. split; [reflexivity|]. unfold rmw_count. rewrite (access_ok w k a ob Ha K). cbn [bind wser]. rewrite E. cbn [slot_get nth_error bind insert firstn skipn app]. reflexivity.
Qed.
(** The state after such a step. *)
Definition after_rmw (w : wstate) (t : nat) (a : N) (ob : wobj) (hh : history) (th' : wthread) : wstate :=
  W (wset (wheap w) a (Some (newobj w ob))) (cset (counts w) (wser ob) hh) (wcells w) (upd (wths w) t th') (wfresh w) (wdeleted w) (used w) (freed w) (S (clock w)).
Lemma cset_eq f n h : cset f n h n = h.
Proof. unfold cset. now rewrite Nat.eqb_refl. Qed.
Lemma cset_ne f n h x : x <> n -> cset f n h x = f x.
Proof. intros H. unfold cset. now apply Nat.eqb_neq in H as ->. Qed.
Lemma wset_eq h a x : wset h a x a = x.
Proof. unfold wset. now rewrite N.eqb_refl. Qed.
Lemma wset_ne h a x b : a <> b -> wset h a x b = h b.
Proof. intros H. unfold wset. now apply N.eqb_neq in H as ->. Qed.

Lemma oinv_rmw w w' t th th' a ob m h f : winv w -> nth_error (wths w) t = Some th -> wheap w a = Some ob -> counts w (wser ob) = m :: h ->
  wths w' = upd (wths w) t th' -> counts w' (wser ob) = newmsg w (know th) m f :: m :: h -> used w' = used w ->
  oinv w' a (newobj w ob).
Proof.
  intros V Ht Ha E Eth En Eu. pose proof (w_o _ _ _ V a ob Ha) as O. assert (Hlt : (t < length (wths w))%nat) by (apply nth_error_Some; congruence). split; cbn [newobj wser ctor accs].
  - rewrite En. discriminate.
  - rewrite En. apply rmw_tail_cons; [reflexivity|]. rewrite <- E. apply O.
  - rewrite Eu. apply O.
  - intros x [<-|Hx].
    + left. exists (newmsg w (know th) m f), (m :: h). split; [exact En|]. cbn. apply vle_join_r. apply acquire_ev.
    + destruct (o_accs _ _ _ O x Hx) as [(m0 & h0 & E0 & Vx)|(u & thu & Hu & Ku & Vo)].
      * rewrite E in E0. injection E0 as <- <-. left. exists (newmsg w (know th) m f), (m :: h). split; [exact En|]. cbn. now apply vle_join_l.
      * destruct (Nat.eq_dec t u) as [<-|Hne].
        -- rewrite Ht in Hu. injection Hu as <-. left. exists (newmsg w (know th) m f), (m :: h). split; [exact En|]. cbn. apply vle_join_r. now apply vle_acquire.
        -- right. exists u, thu. rewrite Eth, nth_error_upd_ne by auto. auto.
Qed.
Lemma after_rmw_winv w s t p l k a ob m h f p' l' : inv Plain s -> rel w s -> winv w -> nth_error (wths w) t = Some (WThread p l k) -> wheap w a = Some ob -> counts w (wser ob) = m :: h ->
  stake p l a ->
  let w' := after_rmw w t a ob (newmsg w k m f :: m :: h) (WThread p' l' (acquire k (clock w) m)) in
  tinv w' (WThread p' l' (acquire k (clock w) m)) ->
  (forall b, b <> a -> vouch p l b -> vouch p' l' b) -> winv w'.
Proof.
  intros I R V Ht Ha E St w' T Hv. eapply (winv_obj reuse ops w w' s t _ _ a ob (newobj w ob)); eauto; cbn; try reflexivity.
  - intros n Hn. now apply cset_ne.
  - eapply (oinv_rmw w w' t (WThread p l k)); eauto; try reflexivity; apply cset_eq.
  - apply vle_acquire.
Qed.
(** Objects in the new state have the same construction events. *)
Lemma after_rmw_ctor w t a ob hh th' b ob' : wheap w a = Some ob -> wheap (after_rmw w t a ob hh th') b = Some ob' -> exists ob0, wheap w b = Some ob0 /\ ctor ob' = ctor ob0.
Proof.
  intros Ha. cbn. unfold wset. destruct (N.eqb_spec a b) as [<-|Hne]; [|eauto]. intros E. injection E as <-. eauto.
Qed.
(** The counter in the two machines. *)
Lemma after_rmw_rel w s t a ob m h k f p' l' c : inv Plain s -> rel w s -> wheap w a = Some ob -> counts w (wser ob) = m :: h -> N.to_nat (f (mval m)) = c ->
  rel (after_rmw w t a ob (newmsg w k m f :: m :: h) (WThread p' l' (acquire k (clock w) m)))
      (State (hset (hp s) a (Some (Tobj (wser ob) c false))) (cells s) (upd (threads s) t (Thread (erase p') l')) (fresh s) (deleted s)).
Proof.
  intros I R Ha E Ec. eapply (rel_upd w _ s t (WThread p' l' _)); [exact R|reflexivity|apply R| |apply R|apply R].
  eapply (rel_heap_obj w _ s a ob (newobj w ob)); [exact I|exact R|exact Ha|reflexivity|reflexivity| |].
  - intros n Hn. unfold after_rmw. cbn [counts]. now apply cset_ne.
  - unfold after_rmw. cbn [counts]. rewrite cset_eq. exact Ec.
Qed.
Lemma sc_count w s a ob m h : rel w s -> wheap w a = Some ob -> counts w (wser ob) = m :: h -> hp s a = Some (Tobj (wser ob) (N.to_nat (mval m)) false).
Proof. intros R Ha E. rewrite (heap_obj w s a ob R Ha). unfold erase_ob. now rewrite E. Qed.

(** ** Steps that use an object without changing its counter *)
Definition after_touch (w : wstate) (t : nat) (a : N) (ob : wobj) (th' : wthread) : wstate :=
  W (wset (wheap w) a (Some (newobj w ob))) (cset (counts w) (wser ob) (counts w (wser ob))) (wcells w) (upd (wths w) t th') (wfresh w) (wdeleted w) (used w) (freed w) (S (clock w)).
Lemma cset_same f n x : cset f n (f n) x = f x.
Proof. unfold cset. destruct (Nat.eqb_spec x n); congruence. Qed.
Lemma after_touch_winv w s t p l k a ob p' l' k' : inv Plain s -> rel w s -> winv w -> nth_error (wths w) t = Some (WThread p l k) -> wheap w a = Some ob ->
  stake p l a -> vouch p' l' a -> k' (clock w) = true -> vle k k' ->
  let w' := after_touch w t a ob (WThread p' l' k') in
  tinv w' (WThread p' l' k') ->
  (forall b, vouch p l b -> vouch p' l' b) -> winv w'.
Proof.
  intros I R V Ht Ha St Vo Ke Hk w' T Hv. eapply (winv_obj reuse ops w w' s t _ _ a ob (newobj w ob)); eauto; cbn; try reflexivity.
  - intros n Hn. apply cset_same.
  - pose proof (w_o _ _ _ V a ob Ha) as O. pose proof (oinv_keep w w' a ob t _ (WThread p' l' k') O Ht eq_refl Hk (cset_same _ _ _) eq_refl (Hv a)) as O'.
    split; cbn [newobj wser ctor accs]; try apply O'. intros x [<-|Hx]; [|exact (o_accs _ _ _ O' x Hx)].
    right. exists t, (WThread p' l' k'). split; [|auto]. unfold w', after_touch. cbn [wths]. apply nth_error_upd_eq. apply nth_error_Some. congruence.
Qed.
Lemma after_touch_heap w s t a ob th' : rel w s -> wheap w a = Some ob -> forall b, hp s b = option_map (erase_ob (after_touch w t a ob th')) (wheap (after_touch w t a ob th') b).
Proof.
  intros R Ha b. rewrite (r_hp w s R). cbn [after_touch wheap]. unfold wset. destruct (N.eqb_spec a b) as [<-|Hne].
  - rewrite Ha. cbn [option_map]. unfold erase_ob, after_touch, newobj. cbn [counts wser]. now rewrite cset_same.
  - destruct (wheap w b); cbn [option_map]; [|reflexivity]. unfold erase_ob, after_touch. cbn [counts]. now rewrite cset_same.
Qed.
Lemma after_touch_ctor w t a ob th' b ob' : wheap w a = Some ob -> wheap (after_touch w t a ob th') b = Some ob' -> exists ob0, wheap w b = Some ob0 /\ ctor ob' = ctor ob0.
Proof.
  intros Ha. cbn. unfold wset. destruct (N.eqb_spec a b) as [<-|Hne]; [|eauto]. intros E. injection E as <-. eauto.
Qed.

(** ** Steps that use a cell *)
Definition after_cell (w : wstate) (t c : nat) (x : wcell) (th' : wthread) : wstate :=
  W (wheap w) (counts w) (upd (wcells w) c x) (upd (wths w) t th') (wfresh w) (wdeleted w) (used w) (freed w) (S (clock w)).
Lemma cell_live w s c x : rel w s -> nth_error (cells s) c = Some (CLive x) -> exists e us h, nth_error (wcells w) c = Some (WLive e us h) /\ hv h = x.
Proof.
  intros R H. destruct (erase_cells_inv w s c _ R H) as (y & Hy & E). destruct y as [| |e us h]; try discriminate. injection E as ->. eauto 6.
Qed.
Lemma rel_quiet w w' s t th th' : rel w s -> nth_error (wths w) t = Some th -> wths w' = upd (wths w) t th' -> erase_th th' = erase_th th ->
  map erase_cell (wcells w') = map erase_cell (wcells w) -> (forall a, hp s a = option_map (erase_ob w') (wheap w' a)) -> wfresh w' = wfresh w -> wdeleted w' = wdeleted w -> rel w' s.
Proof.
  intros R Ht Eth Ee Ec Eh Ef Ed. split; auto.
  - rewrite Eth, map_upd, Ee, upd_same; [apply R|]. now apply map_nth_error.
  - rewrite Ec. apply R.
  - rewrite Ef. apply R.
  - rewrite Ed. apply R.
Qed.
Lemma cells_quiet w c e us h us' : nth_error (wcells w) c = Some (WLive e us h) -> map erase_cell (upd (wcells w) c (WLive e us' h)) = map erase_cell (wcells w).
Proof. intros H. rewrite map_upd, upd_same; [reflexivity|]. rewrite (map_nth_error _ _ _ H). reflexivity. Qed.
Lemma after_cell_read w s t c e us h p l k p' l' k' : inv Plain s -> rel w s -> winv w -> nth_error (wths w) t = Some (WThread p l k) ->
  nth_error (wcells w) c = Some (WLive e us h) -> vle k k' ->
  let w' := after_cell w t c (WLive e (clock w :: us) h) (WThread p' l' k') in
  tinv w' (WThread p' l' k') -> (forall b, vouch p l b -> vouch p' l' b) -> winv w'.
Proof.
  intros I R V Ht Hc Hk w' T Hv. eapply (winv_cell reuse ops w w' s t _ _ c e us h (clock w :: us) h); eauto; try reflexivity.
  apply incl_tl, incl_refl.
Qed.

Lemma sc_cont s t p l : nth_error (threads s) t = Some (Thread p l) -> step s (ECont t) = cont Plain debug s t p l.
Proof. intros H. cbn [AtomicRefModel.step]. now rewrite (slot_get_ok _ _ _ H). Qed.
Lemma sc_allowed s t p l : nth_error (threads s) t = Some (Thread p l) -> p <> Idle -> allowed s (ECont t).
Proof. intros H Hp. exists (Thread p l). auto. Qed.
Lemma eqb_1 n : Nat.eqb (N.to_nat n) 1 = (n =? 1).
Proof. destruct (N.eqb_spec n 1) as [->|Hn]; [reflexivity|]. apply Nat.eqb_neq. intros E. apply Hn. lia. Qed.

Definition good (w : wstate) (s : state) (r : outcome (wstate * list obs)) : Prop :=
  exists w' o, r = Ok (w', o) /\ winv w' /\ follows s w' o.

Lemma add_good w s t i p l k a : inv Plain s -> rel w s -> winv w -> nth_error (wths w) t = Some (WThread p l k) ->
  p = NewP a \/ p = Add a -> choice_ok w p k i -> good w s (wcont debug cas_acquire w t p l k i).
Proof.
  intros I R V H Hp C. pose proof (erase_thread w s t _ R H) as Hs. pose proof (i_thr Plain s I t _ Hs) as T. cbn in T.
  assert (St : stake p l a /\ (a <> 0 \/ In a l)).
  { destruct Hp as [->| ->]; cbn in T; (split; [|auto]); [right; right; left; reflexivity|left; exact T]. }
  destruct St as [St Na]. destruct (stake_ob w s t _ a I R V H St Na) as (ob & Hob & K & N0). cbn [know] in K.
  assert (C' : obj_hist w a (fun h => rmw_ok k h i)) by (destruct Hp as [->| ->]; exact C).
  destruct (rmw_count_ok w k a ob i N.succ V Hob K C') as (m & h & E & Er).
  assert (Ew : wcont debug cas_acquire w t p l k i = Ok (after_rmw w t a ob (newmsg w k m N.succ :: m :: h) (WThread Idle (a :: l) (acquire k (clock w) m)), [])).
  { destruct Hp as [->| ->]; cbn [wcont]; rewrite Er; cbn [bind]; rewrite (put_thread_ok _ _ (WThread _ l k)) by exact H; reflexivity. }
  exists (after_rmw w t a ob (newmsg w k m N.succ :: m :: h) (WThread Idle (a :: l) (acquire k (clock w) m))), []. split; [exact Ew|]. split.
  - eapply after_rmw_winv; eauto.
    + eapply tinv_plain; [exact (w_t _ _ _ V t _ H)|apply vle_acquire| |exact Logic.I|intros ? ? ? ? []].
      intros b ob' Hb Sb. destruct (after_rmw_ctor _ _ _ _ _ _ _ _ Hob Hb) as (ob0 & H0 & Ec). exists ob0. split; [auto|]. split; [auto|]. left.
      destruct Sb as [[<-|Sb]|[[]|[[]|(c & v & Sb & _)]]]; [exact St|left; exact Sb|discriminate].
    + intros b Hb [Vb|[Vb|Vb]]; [left; right; exact Vb|destruct Hp as [->| ->]; contradiction|destruct Hp as [->| ->]; contradiction].
  - pose proof (sc_count w s a ob m h R Hob E) as Hc.
    eapply follows_one; [exact I|eapply sc_allowed; [exact Hs|destruct Hp as [->| ->]; discriminate]| |].
    + rewrite (sc_cont s t _ _ Hs). instantiate (1 := State (hset (hp s) a (Some (Tobj (wser ob) (S (N.to_nat (mval m))) false))) (cells s) (upd (threads s) t (Thread Idle (a :: l))) (fresh s) (deleted s)).
      destruct Hp as [->| ->]; cbn [erase_th erase wpc wheld tpc cont]; rewrite (addref_ok Plain debug _ _ _ Hc eq_refl); cbn [bind];
        (erewrite setpc_ok by (cbn [sethp threads]; exact Hs)); reflexivity.
    + apply (after_rmw_rel w s t a ob m h k N.succ Idle (a :: l)); auto. apply N2Nat.inj_succ.
Qed.

Lemma last_voucher w s t p l k a c u thu ob : inv Plain s -> rel w s -> nth_error (wths w) t = Some (WThread p l k) -> p = RelSub a c -> a <> 0 ->
  hp s a = Some ob -> cnt ob = 1%nat -> nth_error (wths w) u = Some thu -> vouch (wpc thu) (wheld thu) a -> u = t.
Proof.
  intros I R H -> Ha Ho Hc Hu Hv. pose proof (erase_thread w s t _ R H) as Hs. pose proof (erase_thread w s u _ R Hu) as Hsu.
  destruct (Nat.eq_dec u t) as [|Hne]; [auto|exfalso].
  destruct (live_facts Plain s a ob I Ho) as (_ & _ & _ & Hn). rewrite Hc in Hn.
  pose proof (sum_two (fun th => count_occ N.eq_dec (held th) a + pc_refs a (tpc th))%nat _ _ _ _ _ Hne Hsu Hs) as X.
  assert (Y : (sum (map (fun th => count_occ N.eq_dec (held th) a + pc_refs a (tpc th)) (threads s)) <= handles s a)%nat) by (unfold handles; lia).
  unfold erase_th in X. cbn [tpc held erase wpc wheld pc_refs] in X. rewrite refto_self in X by auto.
  destruct Hv as [Hv|[Hv|Hv]].
  - apply (count_occ_In N.eq_dec) in Hv. lia.
  - apply Hne. apply (closing_alone w s u thu a t _ I R Hu Hv H); [right; right; left; reflexivity|exact Ha].
  - destruct (wpc thu); try contradiction. subst. cbn [erase pc_refs] in X. rewrite refto_self in X by auto. lia.
Qed.
Lemma relsub_good w s t i l k a c : inv Plain s -> rel w s -> winv w -> nth_error (wths w) t = Some (WThread (RelSub a c) l k) ->
  choice_ok w (RelSub a c) k i -> good w s (wcont debug cas_acquire w t (RelSub a c) l k i).
Proof.
  intros I R V H C. pose proof (erase_thread w s t _ R H) as Hs. pose proof (i_thr Plain s I t _ Hs) as T. cbn in T.
  assert (St : stake (RelSub a c) l a) by (right; right; left; reflexivity).
  destruct (stake_ob w s t _ a I R V H St (or_introl T)) as (ob & Hob & K & _). cbn [know] in K.
  destruct (rmw_count_ok w k a ob i N.pred V Hob K C) as (m & h & E & Er). pose proof (sc_count w s a ob m h R Hob E) as Hc.
  cbn [wcont]. rewrite Er. cbn [bind].
  assert (Fo : forall p' o, (p' = Idle \/ p' = RelAssert a c) -> (if mval m =? 1 then (RelAssert a c, []) else (Idle, finish t c)) = (p', o) ->
     follows s (after_rmw w t a ob (newmsg w k m N.pred :: m :: h) (WThread p' l (acquire k (clock w) m))) o).
  { intros p' o Hp' Eif. eapply follows_one; [exact I|eapply sc_allowed; [exact Hs|discriminate]| |].
    - rewrite (sc_cont s t _ _ Hs). instantiate (1 := State (hset (hp s) a (Some (Tobj (wser ob) (pred (N.to_nat (mval m))) false))) (cells s) (upd (threads s) t (Thread (erase p') l)) (fresh s) (deleted s)).
      cbn [erase_th erase wpc wheld tpc cont]. rewrite Hc. cbn [cnt ser dying]. rewrite eqb_1.
      destruct (mval m =? 1); injection Eif as <- <-; (erewrite setpc_ok by (cbn [sethp threads]; exact Hs)); reflexivity.
    - apply (after_rmw_rel w s t a ob m h k N.pred p' l); auto. apply N2Nat.inj_pred. }
  destruct (N.eqb_spec (mval m) 1) as [E1|E1].
  - rewrite (put_thread_ok _ _ (WThread (RelSub a c) l k)) by exact H. cbn [bind].
    exists (after_rmw w t a ob (newmsg w k m N.pred :: m :: h) (WThread (RelAssert a c) l (acquire k (clock w) m))), []. split; [reflexivity|]. split; [|apply Fo; auto].
    eapply after_rmw_winv; eauto.
    + eapply tinv_new; [exact (w_t _ _ _ V t _ H)|apply vle_acquire| | | | | | |]; cbn [closing sec_val wuses]; try (intros; discriminate); try (intros; contradiction); auto.
      * intros b ob' Hb Sb. destruct (after_rmw_ctor _ _ _ _ _ _ _ _ Hob Hb) as (ob0 & H0 & Ec). exists ob0. split; [auto|]. split; [auto|]. left.
        destruct Sb as [Sb|[Sb|[[]|(? & v & Sb & _)]]]; [left; exact Sb|cbn in Sb; subst; exact St|discriminate].
      * intros b ob' <- Hb x Hx. unfold after_rmw in Hb. cbn [wheap] in Hb. rewrite wset_eq in Hb. injection Hb as <-. cbn [newobj accs] in Hx. destruct Hx as [<-|Hx]; [apply acquire_ev|].
        destruct (o_accs _ _ _ (w_o _ _ _ V a ob Hob) x Hx) as [(m0 & h0 & E0 & Vx)|(u & thu & Hu & Ku & Vo)].
        -- rewrite E in E0. injection E0 as <- <-. now apply acquire_view.
        -- assert (u = t) as -> by (eapply last_voucher; eauto; cbn; rewrite E1; reflexivity). rewrite H in Hu. injection Hu as <-. now apply vle_acquire.
      * intros b q ob' Eq Hb. injection Eq as <- <-. unfold after_rmw in Hb. cbn [wheap] in Hb. rewrite wset_eq in Hb. injection Hb as <-.
        exists (newmsg w k m N.pred), (m :: h). split; [apply cset_eq|apply acquire_ev].
    + intros b Hb [Vb|[Vb|Vb]]; [left; exact Vb|contradiction|congruence].
  - rewrite (put_thread_ok _ _ (WThread (RelSub a c) l k)) by exact H. cbn [bind].
    exists (after_rmw w t a ob (newmsg w k m N.pred :: m :: h) (WThread Idle l (acquire k (clock w) m))), (finish t c). split; [reflexivity|]. split; [|apply Fo; auto].
    eapply after_rmw_winv; eauto.
    + eapply tinv_plain; [exact (w_t _ _ _ V t _ H)|apply vle_acquire| |exact Logic.I|intros ? ? ? ? []].
      intros b ob' Hb Sb. destruct (after_rmw_ctor _ _ _ _ _ _ _ _ Hob Hb) as (ob0 & H0 & Ec). exists ob0. split; [auto|]. split; [auto|]. left.
      destruct Sb as [Sb|[[]|[[]|(? & v & Sb & _)]]]; [left; exact Sb|discriminate].
    + intros b Hb [Vb|[Vb|Vb]]; [left; exact Vb|contradiction|congruence].
Qed.

(** The deleting thread. *)
Lemma closing_zero w s t th a ob : inv Plain s -> rel w s -> nth_error (wths w) t = Some th -> closing (wpc th) a -> a <> 0 -> hp s a = Some ob -> cnt ob = 0%nat.
Proof.
  intros I R H Hc Ha Ho. pose proof (erase_thread w s t _ R H) as Hs. pose proof (addr_case Plain s a I) as Z. rewrite Ho in Z. cbn in Z.
  pose proof (sum_ge (fun th => owner a (tpc th)) _ _ _ Hs) as G. fold (owners s a) in G. unfold erase_th in G. cbn [tpc] in G.
  assert (owner a (erase (wpc th)) = 1%nat) by (destruct (wpc th); cbn in *; try contradiction; subst; now apply refto_self). lia.
Qed.
Lemma relassert_good w s t i l k a c : inv Plain s -> rel w s -> winv w -> nth_error (wths w) t = Some (WThread (RelAssert a c) l k) ->
  choice_ok w (RelAssert a c) k i -> good w s (wcont debug cas_acquire w t (RelAssert a c) l k i).
Proof.
  intros I R V H C. pose proof (erase_thread w s t _ R H) as Hs. pose proof (i_thr Plain s I t _ Hs) as T. cbn in T. destruct T as [Na _].
  assert (St : stake (RelAssert a c) l a) by (right; left; reflexivity).
  destruct (stake_ob w s t _ a I R V H St (or_introl Na)) as (ob & Hob & K & _). cbn [know] in K.
  pose proof (w_t _ _ _ V t _ H) as Tv. destruct (t_last _ _ _ _ Tv a c ob eq_refl Hob) as (m & h & E & Km). cbn [know] in Km.
  pose proof (read_latest k _ i m h E Km (C ob Hob)) as ->. pose proof (sc_count w s a ob m h R Hob E) as Hc.
  pose proof (closing_zero w s t _ a _ I R H eq_refl Na Hc) as Ez. cbn in Ez.
  cbn [wcont]. rewrite (access_ok w k a ob Hob K). cbn [bind wser]. unfold slot_get. rewrite E. cbn [nth_error bind].
  replace (mval m =? 0) with true by (symmetry; apply N.eqb_eq; lia). rewrite assert_true. cbn [bind].
  rewrite (put_thread_ok _ _ (WThread (RelAssert a c) l k)) by exact H. cbn [bind].
  exists (after_touch w t a ob (WThread (RelDel a c) l (acquire k (clock w) m))), []. split; [unfold after_touch; rewrite E; reflexivity|]. split.
  - eapply after_touch_winv; eauto.
    + right. left. reflexivity.
    + apply acquire_ev.
    + apply vle_acquire.
    + eapply tinv_new; [exact Tv|apply vle_acquire| | | | | | |]; cbn [closing sec_val wuses]; try (intros; discriminate); try (intros; contradiction); auto.
      * intros b ob' Hb Sb. destruct (after_touch_ctor _ _ _ _ _ _ _ Hob Hb) as (ob0 & H0 & Ec). exists ob0. split; [auto|]. split; [auto|]. left.
        destruct Sb as [Sb|[Sb|[[]|(? & v & Sb & _)]]]; [left; exact Sb|right; left; exact Sb|discriminate].
      * intros b ob' <- Hb x Hx. unfold after_touch in Hb. cbn [wheap] in Hb. rewrite wset_eq in Hb. injection Hb as <-. cbn [newobj accs] in Hx. destruct Hx as [<-|Hx]; [apply acquire_ev|].
        apply vle_acquire. exact (t_close _ _ _ _ Tv a ob eq_refl Hob x Hx).
  - eapply follows_one; [exact I|eapply sc_allowed; [exact Hs|discriminate]| |].
    + rewrite (sc_cont s t _ _ Hs). instantiate (1 := State (hp s) (cells s) (upd (threads s) t (Thread (RelDel a c) l)) (fresh s) (deleted s)).
      cbn [erase_th erase wpc wheld tpc cont]. rewrite Hc. cbn [cnt]. rewrite Ez. cbn [Nat.eqb]. rewrite assert_true. cbn [bind].
      now rewrite (setpc_ok _ _ _ _ _ Hs).
    + eapply (rel_upd w _ s t (WThread (RelDel a c) l _)); [exact R|reflexivity|apply R|now apply after_touch_heap|apply R|apply R].
Qed.
Lemma reldel_good w s t i l k a c : inv Plain s -> rel w s -> winv w -> nth_error (wths w) t = Some (WThread (RelDel a c) l k) ->
  good w s (wcont debug cas_acquire w t (RelDel a c) l k i).
Proof.
  intros I R V H. pose proof (erase_thread w s t _ R H) as Hs. pose proof (i_thr Plain s I t _ Hs) as T. cbn in T. destruct T as [Na _].
  assert (St : stake (RelDel a c) l a) by (right; left; reflexivity).
  destruct (stake_ob w s t _ a I R V H St (or_introl Na)) as (ob & Hob & K & _). cbn [know] in K.
  pose proof (w_t _ _ _ V t _ H) as Tv. pose proof (heap_obj w s a ob R Hob) as Hc.
  cbn [wcont]. rewrite Hob. assert (forallb k (ctor ob :: accs ob) = true) as ->.
  { apply forallb_forall. intros x [<-|Hx]; [exact K|exact (t_close _ _ _ _ Tv a ob eq_refl Hob x Hx)]. }
  rewrite (put_thread_ok _ _ (WThread (RelDel a c) l k)) by exact H. cbn [bind wheap counts wcells wths wfresh wdeleted used freed clock].
  eexists _, (finish t c). split; [reflexivity|]. split.
  - eapply (winv_gen reuse ops w _ s t _ (WThread Idle l (vadd k (clock w)))); eauto; cbn [wths wheap counts wcells used].
    + intros b ob'. cbn [wheap counts]. unfold wset. destruct (N.eqb_spec a b); [discriminate|]. intros Hb. right. exists ob'. repeat split; auto.
    + intros _ b x Hb. exact Hb.
    + intros. now apply ccond_same.
    + eapply tinv_plain; [exact Tv|apply vle_add| |exact Logic.I|intros ? ? ? ? []].
      intros b ob'. cbn [wheap]. unfold wset. destruct (N.eqb_spec a b); [discriminate|]. intros Hb Sb. exists ob'. split; [auto|]. split; [auto|]. left.
      destruct Sb as [Sb|[[]|[[]|(? & v & Sb & _)]]]; [left; exact Sb|discriminate].
    + apply vle_add.
    + intros b ob'. unfold wset. destruct (N.eqb_spec a b) as [|Hne]; [discriminate|]. intros Hb. right. repeat split; auto. cbn [wpc wheld].
      intros [Vb|[Vb|Vb]]; [left; exact Vb|cbn in Vb; congruence|contradiction].
    + intros d e us h Hd. right. exists us. split; [auto|apply incl_refl].
  - eapply follows_one; [exact I|eapply sc_allowed; [exact Hs|discriminate]| |].
    + rewrite (sc_cont s t _ _ Hs). instantiate (1 := State (hset (hp s) a None) (cells s) (upd (threads s) t (Thread Idle l)) (fresh s) (wser ob :: deleted s)).
      cbn [erase_th erase wpc wheld tpc cont]. rewrite Hc. (erewrite setpc_ok by (cbn [threads]; exact Hs)). reflexivity.
    + eapply (rel_upd w _ s t (WThread Idle l (vadd k (clock w)))); cbn [wths wheap counts wcells wfresh wdeleted]; [exact R|reflexivity|apply R| |apply R|now rewrite (r_de w s R)].
      intros b. unfold hset, wset. destruct (N.eqb_spec a b); [reflexivity|]. apply R.
Qed.
End Step.
