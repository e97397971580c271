(** Steps on AtomicRefs. *)
From Verif Require Import Base AtomicRefModel AtomicRefSpec AtomicRefProofs AtomicRefStep WeakModel WeakSpec WeakInv WeakFrame WeakStep.
Local Open Scope N_scope.

Lemma upd_upd {A} (l : list A) i x y : upd (upd l i x) i y = upd l i y.
Proof. revert i. induction l as [|a l IH]; intros [|i]; cbn; auto. now rewrite IH. Qed.

Section Step.
Variables debug cas_acquire reuse ops : bool.
Hypothesis Hyp : cas_acquire = true \/ reuse = false \/ ops = false.
Notation tinv := (tinv reuse ops). Notation cinv := (cinv reuse). Notation winv := (winv reuse ops).
Notation wcont := (wcont debug cas_acquire).
Notation run := (run Plain debug). Notation step := (step Plain debug). Notation legal := (legal Plain debug).
Notation good := (good debug reuse ops).

Lemma load_good w s t i l k c o : inv Plain s -> rel w s -> winv w -> nth_error (wths w) t = Some (WThread (LkLoad c o) l k) ->
  choice_ok w (LkLoad c o) k i -> good w s (wcont w t (LkLoad c o) l k i).
Proof.
  intros I R V H C. pose proof (erase_thread w s t _ R H) as Hs. pose proof (i_thr Plain s I t _ Hs) as T. cbn in T. destruct T as [[x Hx] Ho].
  pose proof (w_t _ _ _ V t _ H) as Tv. destruct (cell_live w s c x R Hx) as (e & us & h & Hc & Hh).
  pose proof (t_uses _ _ _ _ Tv c e us h eq_refl Hc) as Ke. cbn [know] in Ke. destruct (C e us h Hc) as [Hi _].
  destruct (nth_error h i) as [m|] eqn:Em; [|apply nth_error_None in Em; lia].
  cbn [WeakModel.wcont]. rewrite (access_cell_ok w k c e us h Hc Ke). cbn [bind]. rewrite (slot_get_ok _ _ _ Em). cbn [bind].
  rewrite (put_cell_ok _ _ _ _ Hc). cbn [bind]. rewrite (put_thread_ok _ _ (WThread (LkLoad c o) l k)) by exact H. cbn [bind].
  exists (after_cell w t c (WLive e (clock w :: us) h) (WThread (LkCas c o (untagged (mval m))) l (acquire k (clock w) m))), []. split; [reflexivity|]. split.
  - eapply after_cell_read; eauto.
    + apply vle_acquire.
    + eapply tinv_new; [exact Tv|apply vle_acquire| | | | | | |]; cbn [closing sec_val wuses]; try (intros; discriminate); try (intros; contradiction); auto.
      * intros b ob' Hb Sb. exists ob'. split; [auto|]. split; [auto|]. left. destruct Sb as [Sb|[[]|[[]|(? & v & Sb & _)]]]; [left; exact Sb|discriminate].
      * intros d e1 us1 h1 <-. unfold after_cell. cbn [wcells]. rewrite nth_error_upd_eq by (apply nth_error_Some; congruence). intros E. injection E as <- <- <-. now apply vle_acquire.
      * intros d o1 old E. injection E as <- <- <-. split; [apply untagged_is_even|]. intros Hr Hn. unfold after_cell. cbn [used].
        destruct (c_all _ _ _ _ _ (w_c _ _ _ V c e us h Hc) Hr m (nth_error_In _ _ Em) Hn) as (y & Hy & Ky). exists y. split; [exact Hy|now apply acquire_view].
      * exact (t_ops _ _ _ _ Tv).
  - apply follows_none; [exact I|]. eapply (rel_quiet w _ s t); [exact R|exact H|reflexivity|reflexivity| |now apply (rel_heap_same w)|reflexivity|reflexivity].
    eapply cells_quiet; eauto.
Qed.

Lemma cas_fail w s t i l k c o old e us h m : inv Plain s -> rel w s -> winv w -> nth_error (wths w) t = Some (WThread (LkCas c o old) l k) ->
  nth_error (wcells w) c = Some (WLive e us h) -> k e = true -> nth_error h i = Some m -> mval m <> old -> good w s (wcont w t (LkCas c o old) l k i).
Proof.
  intros I R V H Hc Ke Em Hne. pose proof (w_t _ _ _ V t _ H) as Tv.
  cbn [WeakModel.wcont]. rewrite (access_cell_ok w k c e us h Hc Ke). cbn [bind]. rewrite (slot_get_ok _ _ _ Em). cbn [bind].
  apply N.eqb_neq in Hne. rewrite Hne, (put_cell_ok _ _ _ _ Hc). cbn [bind]. rewrite (put_thread_ok _ _ (WThread (LkCas c o old) l k)) by exact H. cbn [bind].
  exists (after_cell w t c (WLive e (clock w :: us) h) (WThread (LkLoad c o) l (relaxed k (clock w) m))), []. split; [reflexivity|]. split.
  - eapply after_cell_read; eauto.
    + apply vle_relaxed.
    + eapply tinv_new; [exact Tv|apply vle_relaxed| | | | | | |]; cbn [closing sec_val wuses]; try (intros; discriminate); try (intros; contradiction); auto.
      * intros b ob' Hb Sb. exists ob'. split; [auto|]. split; [auto|]. left. destruct Sb as [Sb|[[]|[[]|(? & v & Sb & _)]]]; [left; exact Sb|discriminate].
      * intros d e1 us1 h1 <-. unfold after_cell. cbn [wcells]. rewrite nth_error_upd_eq by (apply nth_error_Some; congruence). intros E. injection E as <- <- <-. now apply vle_relaxed.
      * exact (t_ops _ _ _ _ Tv).
  - apply follows_none; [exact I|]. eapply (rel_quiet w _ s t); [exact R|exact H|reflexivity|reflexivity| |now apply (rel_heap_same w)|reflexivity|reflexivity].
    eapply cells_quiet; eauto.
Qed.

(** Changing the word of a cell. *)
Definition after_write (w : wstate) (t c e : nat) (us : list nat) (m : msg) (h : history) (th' : wthread) : wstate :=
  after_cell w t c (WLive e (clock w :: us) (m :: h)) th'.
Lemma after_write_winv w s t p l k c e us m h p' l' k' : inv Plain s -> rel w s -> winv w -> nth_error (wths w) t = Some (WThread p l k) ->
  nth_error (wcells w) c = Some (WLive e us h) -> vle k k' -> mid m = clock w -> alt (m :: h) ->
  (forall ob, wheap w (untagged (mval m)) = Some ob -> mview m (ctor ob) = true) ->
  (reuse = false -> untagged (mval m) <> 0 -> exists x, used w (untagged (mval m)) = Some x /\ mview m x = true) ->
  (forall u thu v, u <> t -> nth_error (wths w) u = Some thu -> sec_val (wpc thu) <> Some (c, v)) ->
  let w' := after_write w t c e us m h (WThread p' l' k') in
  tinv w' (WThread p' l' k') -> (forall b, vouch p l b -> vouch p' l' b) -> winv w'.
Proof.
  intros I R V Ht Hc Hk Em Ha Hv Hu Hs w' T Hvo. pose proof (w_c _ _ _ V c e us h Hc) as C.
  eapply (winv_cell reuse ops w w' s t _ _ c e us h (clock w :: us) (m :: h)); eauto; try reflexivity.
  - apply incl_tl, incl_refl.
  - right. split; [|exact Hs]. split.
    + discriminate.
    + exact Ha.
    + intros m0 r E. injection E as <- <-. right. left. now rewrite Em.
    + intros m0 r ob E. injection E as <- <-. apply Hv.
    + intros Hr m0 [<-|Hm] Hn; [exact (Hu Hr Hn)|exact (c_all _ _ _ _ _ C Hr m0 Hm Hn)].
Qed.
(** Nobody else is inside a cell's critical section. *)
Lemma others_out w s t p l k c x : inv Plain s -> rel w s -> nth_error (wths w) t = Some (WThread p l k) -> nth_error (cells s) c = Some x ->
  cexcl x = 0%nat \/ excl c (erase p) = 1%nat -> forall u thu v, u <> t -> nth_error (wths w) u = Some thu -> sec_val (wpc thu) <> Some (c, v).
Proof.
  intros I R H Hc He u thu v Hu Hthu Hs. pose proof (sec_excl _ _ _ Hs) as X. pose proof (erase_thread w s u thu R Hthu) as Hsu. pose proof (erase_thread w s t _ R H) as Hst.
  destruct He as [He|He].
  - pose proof (excl_none Plain s c x I Hc He u _ Hsu) as Z. unfold erase_th in Z. cbn [tpc] in Z. congruence.
  - pose proof (excl_one Plain s t (erase p) l c x I Hst Hc He u _ Hu Hsu) as Z. unfold erase_th in Z. cbn [tpc] in Z. congruence.
Qed.
Lemma cells_write w s c e us us' h m : rel w s -> nth_error (wcells w) c = Some (WLive e us h) ->
  upd (cells s) c (CLive (mval m)) = map erase_cell (upd (wcells w) c (WLive e us' (m :: h))).
Proof. intros R Hc. rewrite map_upd. cbn [erase_cell hv]. now rewrite (r_ce w s R). Qed.

Lemma cas_ok_step w s t i l k c o old e us h m : inv Plain s -> rel w s -> winv w -> nth_error (wths w) t = Some (WThread (LkCas c o old) l k) ->
  nth_error (wcells w) c = Some (WLive e us h) -> k e = true -> nth_error h i = Some m -> mval m = old -> cas_ok k h i old -> good w s (wcont w t (LkCas c o old) l k i).
Proof.
  intros I R V H Hc Ke Em Ev C. pose proof (w_t _ _ _ V t _ H) as Tv. pose proof (w_c _ _ _ V c e us h Hc) as Ci.
  destruct (t_old _ _ _ _ Tv c o old eq_refl) as [Eo Hold]. pose proof (cas_latest k h i old m (c_alt _ _ _ _ _ Ci) Eo C Em Ev) as ->.
  destruct h as [|m0 r]; [discriminate|]. injection Em as ->.
  pose proof (erase_thread w s t _ R H) as Hs. pose proof (i_thr Plain s I t _ Hs) as T. cbn in T. destruct T as [_ Ho].
  pose proof (erase_cells w s c _ R Hc) as Hsc. cbn [erase_cell hv] in Hsc. rewrite Ev in Hsc.
  set (k' := if cas_acquire then acquire k (clock w) m else relaxed k (clock w) m).
  assert (Hk : vle k k') by (subst k'; destruct cas_acquire; [apply vle_acquire|apply vle_relaxed]).
  assert (Ke' : k' (clock w) = true) by (subst k'; destruct cas_acquire; [apply acquire_ev|apply relaxed_ev]).
  assert (Odd : N.odd old = false) by (rewrite odd_even, Eo; reflexivity).
  assert (Kn : forall ob, wheap w old = Some ob -> k' (ctor ob) = true).
  { intros ob Hob. destruct Hyp as [->|[Hr|Hops]].
    - subst k'. apply acquire_view. apply (c_view _ _ _ _ _ Ci m r ob eq_refl). now rewrite Ev, (untagged_even old Eo).
    - destruct (Hold Hr (heap_nonnull w s old ob I R Hob)) as (x & Hx & Kx). rewrite (o_used _ _ _ (w_o _ _ _ V old ob Hob)) in Hx. injection Hx as <-. now apply Hk.
    - destruct (t_ops _ _ _ _ Tv Hops). }
  cbn [WeakModel.wcont]. rewrite (access_cell_ok w k c e us (m :: r) Hc Ke). cbn [bind slot_get nth_error].
  rewrite Ev, N.eqb_refl. cbn [insert firstn skipn app]. fold k'. rewrite (put_cell_ok _ _ _ _ Hc). cbn [bind]. rewrite (put_thread_ok _ _ (WThread (LkCas c o old) l k)) by exact H. cbn [bind].
  set (nm := Msg (clock w) (tagged old) (vjoin (mview m) k') true).
  exists (after_write w t c e us nm (m :: r) (WThread (enter c o old) l k')), []. split; [reflexivity|].
  assert (Hp' : sec_val (enter c o old) = Some (c, old) /\ (forall b, stake (enter c o old) l b -> In b l \/ b = old /\ old <> 0) /\ (forall d, wuses (enter c o old) d -> d = c)).
  { destruct (enter_cases c o old) as [[_ ->]|[_ ->]]; cbn [sec_val wuses]; (split; [reflexivity|]; split; [|auto]); intros b [Sb|[[]|[[]|(d & v & Sb & Eb & Nb)]]]; auto; injection Sb as <- <-; subst; auto. }
  destruct Hp' as (Hsv & Hst & Hus). split.
  - eapply after_write_winv; eauto.
    + apply alt_cons_odd; [reflexivity|apply Ci].
    + unfold nm. cbn [mval mview]. intros ob. rewrite untagged_tagged, (untagged_even old Eo). intros Hob. apply vle_join_r. now apply Kn.
    + unfold nm. cbn [mval mview]. rewrite untagged_tagged, (untagged_even old Eo). intros Hr Hn.
      destruct (c_all _ _ _ _ _ Ci Hr m (or_introl eq_refl)) as (x & Hx & Kx); [rewrite Ev, (untagged_even old Eo); exact Hn|].
      rewrite Ev, (untagged_even old Eo) in Hx. exists x. split; [exact Hx|]. now apply vle_join_l.
    + eapply others_out; eauto. left. cbn. now rewrite Odd.
    + eapply tinv_new; [exact Tv|exact Hk| | | | | | |].
      * intros b ob' Hb Sb. exists ob'. split; [exact Hb|]. split; [auto|]. destruct (Hst b Sb) as [X|[-> _]]; [left; left; exact X|right; exact (Kn ob' Hb)].
      * intros a ob Hcl. destruct (enter_cases c o old) as [[_ E]|[_ E]]; rewrite E in Hcl; contradiction.
      * intros a q ob Hcl. destruct (enter_cases c o old) as [[_ E]|[_ E]]; rewrite E in Hcl; discriminate.
      * intros d v Hd. rewrite Hsv in Hd. injection Hd as <- <-. exists e, (clock w :: us), nm, (m :: r). split; [|exact Ke'].
        unfold after_write, after_cell. cbn [wcells]. apply nth_error_upd_eq. apply nth_error_Some. congruence.
      * intros d e1 us1 h1 Hd. rewrite (Hus d Hd). unfold after_write, after_cell. cbn [wcells]. rewrite nth_error_upd_eq by (apply nth_error_Some; congruence).
        intros E. injection E as <- <- <-. now apply Hk.
      * intros d o1 old1 E1. destruct (enter_cases c o old) as [[_ E]|[_ E]]; rewrite E in E1; discriminate.
      * intros _. destruct (enter_cases c o old) as [[_ ->]|[_ ->]]; exact Logic.I.
    + intros b [Vb|[[]|[]]]. left. exact Vb.
  - change (nth_error (threads s) t = Some (Thread (LkLoad c o) l)) in Hs.
    set (s1 := State (hp s) (cells s) (upd (threads s) t (Thread (LkCas c o old) l)) (fresh s) (deleted s)).
    assert (Hs1 : nth_error (threads s1) t = Some (Thread (LkCas c o old) l)) by (unfold s1; cbn [threads]; apply nth_error_upd_eq; apply nth_error_Some; congruence).
    eapply (follows_two debug s _ t s1); [exact I|eapply sc_allowed; [exact Hs|discriminate]| |eapply sc_allowed; [exact Hs1|discriminate]| |].
    + rewrite (sc_cont debug s t _ _ Hs). cbn [cont]. rewrite (load_ok _ _ _ Hsc). cbn [bind]. rewrite (untagged_even old Eo), (setpc_ok _ _ _ _ _ Hs). reflexivity.
    + rewrite (sc_cont debug s1 t _ _ Hs1). cbn [cont]. erewrite load_ok by exact Hsc. cbn [bind]. rewrite N.eqb_refl. erewrite setcell_ok by exact Hsc. cbn [bind].
      erewrite setpc_ok by exact Hs1. cbn [bind]. unfold s1. cbn [hp cells threads fresh deleted]. rewrite upd_upd. reflexivity.
    + replace (Thread (enter c o old) l) with (erase_th (WThread (enter c o old) l k')) by (unfold erase_th; cbn [wpc wheld]; destruct (enter_cases c o old) as [[_ ->]|[_ ->]]; reflexivity).
      eapply (rel_upd w _ s t); [exact R|reflexivity| |now apply (rel_heap_same w)|apply R|apply R]. exact (cells_write w s c e us _ (m :: r) nm R Hc).
Qed.
Lemma cas_good w s t i l k c o old : inv Plain s -> rel w s -> winv w -> nth_error (wths w) t = Some (WThread (LkCas c o old) l k) ->
  choice_ok w (LkCas c o old) k i -> good w s (wcont w t (LkCas c o old) l k i).
Proof.
  intros I R V H C. pose proof (erase_thread w s t _ R H) as Hs. pose proof (i_thr Plain s I t _ Hs) as T. cbn in T. destruct T as [[x Hx] Ho].
  pose proof (w_t _ _ _ V t _ H) as Tv. destruct (cell_live w s c x R Hx) as (e & us & h & Hc & Hh).
  pose proof (t_uses _ _ _ _ Tv c e us h eq_refl Hc) as Ke. cbn [know] in Ke. pose proof (C e us h Hc) as Hcas. pose proof Hcas as [[Hi _] _].
  destruct (nth_error h i) as [m|] eqn:Em; [|apply nth_error_None in Em; lia].
  destruct (N.eq_dec (mval m) old) as [E|E]; [eapply cas_ok_step|eapply cas_fail]; eauto.
Qed.

(** ** Inside the critical section *)
Lemma op_stake p l o c v : sec_val p = Some (c, v) -> own_op l o -> target o v <> 0 -> stake p l (target o v) /\ (o = OGet \/ In (target o v) l).
Proof.
  intros Hs Ho Hn. destruct o as [|q]; cbn [target own_op] in *.
  - split; [|auto]. right. right. right. eauto.
  - destruct Ho as [->|Ho]; [contradiction|]. split; [left; exact Ho|auto].
Qed.
Lemma critadd_good w s t i l k c o v : inv Plain s -> rel w s -> winv w -> nth_error (wths w) t = Some (WThread (CritAdd c o v) l k) ->
  choice_ok w (CritAdd c o v) k i -> good w s (wcont w t (CritAdd c o v) l k i).
Proof.
  intros I R V H C. pose proof (erase_thread w s t _ R H) as Hs. pose proof (i_thr Plain s I t _ Hs) as T. cbn in T. destruct T as (L & Ho & Hn).
  destruct (op_stake (CritAdd c o v) l o c v eq_refl Ho Hn) as [St _]. set (a := target o v) in *. pose proof (w_t _ _ _ V t _ H) as Tv.
  destruct (stake_ob _ _ w s t _ a I R V H St (or_introl Hn)) as (ob & Hob & K & _). cbn [know] in K.
  destruct (rmw_count_ok _ _ w k a ob i N.succ V Hob K C) as (m & h & E & Er). pose proof (sc_count w s a ob m h R Hob E) as Hc.
  cbn [WeakModel.wcont]. fold a. rewrite Er. cbn [bind]. rewrite (put_thread_ok _ _ (WThread (CritAdd c o v) l k)) by exact H. cbn [bind].
  exists (after_rmw w t a ob (newmsg w k m N.succ :: m :: h) (WThread (UnA c o v) l (acquire k (clock w) m))), []. split; [reflexivity|]. split.
  - eapply after_rmw_winv; eauto.
    + eapply tinv_new; [exact Tv|apply vle_acquire| | | | | | |]; cbn [closing sec_val wuses]; try (intros; discriminate); try (intros; contradiction); auto.
      * intros b ob' Hb Sb. destruct (after_rmw_ctor _ _ _ _ _ _ _ _ Hob Hb) as (ob0 & H0 & Ec). exists ob0. split; [auto|]. split; [auto|]. left.
        destruct Sb as [Sb|[[]|[[]|(? & v' & Sb)]]]; [left; exact Sb|right; right; right; eauto].
      * intros d v' Hd. destruct (t_sec _ _ _ _ Tv d v' Hd) as (e & us & m' & h' & Hc' & Km). exists e, us, m', h'. split; [exact Hc'|now apply vle_acquire].
      * intros d e us h' Hd Hc'. apply vle_acquire. exact (t_uses _ _ _ _ Tv d e us h' Hd Hc').
  - eapply follows_one; [exact I|eapply sc_allowed; [exact Hs|discriminate]| |].
    + rewrite (sc_cont debug s t _ _ Hs). instantiate (1 := State (hset (hp s) a (Some (Tobj (wser ob) (S (N.to_nat (mval m))) false))) (cells s) (upd (threads s) t (Thread (UnA c o v) l)) (fresh s) (deleted s)).
      cbn [erase_th erase wpc wheld tpc cont]. fold a. rewrite (addref_ok Plain debug _ _ _ Hc eq_refl). cbn [bind]. erewrite setpc_ok by (cbn [sethp threads]; exact Hs). reflexivity.
    + apply (after_rmw_rel w s t a ob m h k N.succ (UnA c o v) l); auto. apply N2Nat.inj_succ.
Qed.
(** The latest message of the locked cell. *)
Lemma locked_head w s t p l k c v : rel w s -> winv w -> nth_error (wths w) t = Some (WThread p l k) -> sec_val p = Some (c, v) -> locked (cells s) c v ->
  exists e us m h, nth_error (wcells w) c = Some (WLive e us (m :: h)) /\ k (mid m) = true /\ mval m = tagged v /\ k e = true.
Proof.
  intros R V H Hs [Lc Ev]. pose proof (w_t _ _ _ V t _ H) as Tv. destruct (t_sec _ _ _ _ Tv c v Hs) as (e & us & m & h & Hc & K). exists e, us, m, h.
  split; [exact Hc|]. split; [exact K|]. split; [|exact (t_uses _ _ _ _ Tv c e us (m :: h) (sec_uses _ _ _ Hs) Hc)].
  pose proof (erase_cells w s c _ R Hc) as X. cbn [erase_cell hv] in X. congruence.
Qed.
(** Re-reading it. *)
Lemma reread_winv w s t p l k c v e us m h p' : inv Plain s -> rel w s -> winv w -> nth_error (wths w) t = Some (WThread p l k) -> sec_val p = Some (c, v) -> sec_val p' = Some (c, v) ->
  (match p' with UnA _ _ _ | UnB _ _ _ _ | UnStore _ _ _ => True | _ => False end) ->
  nth_error (wcells w) c = Some (WLive e us (m :: h)) -> k (mid m) = true -> k e = true ->
  winv (after_cell w t c (WLive e (clock w :: us) (m :: h)) (WThread p' l (acquire k (clock w) m))).
Proof.
  intros I R V H Hs Hs' Hp' Hc Km Ke. pose proof (w_t _ _ _ V t _ H) as Tv.
  assert (Hlt : (c < length (wcells w))%nat) by (apply nth_error_Some; congruence).
  eapply after_cell_read; eauto; [apply vle_acquire| |].
  - eapply tinv_new; [exact Tv|apply vle_acquire| | | | | | |].
    + intros b ob' Hb Sb. exists ob'. split; [exact Hb|]. split; [auto|]. left.
      destruct Sb as [Sb|[Sb|[Sb|(d & v' & Sb & X)]]]; [left; exact Sb|destruct p'; contradiction|destruct p'; contradiction|]. rewrite Hs' in Sb. right. right. right. exists d, v'. rewrite Hs. auto.
    + intros a ob Hcl. destruct p'; contradiction.
    + intros a q ob E. subst. contradiction.
    + intros d v' Hd. rewrite Hs' in Hd. injection Hd as <- <-. exists e, (clock w :: us), m, h. split; [now apply nth_error_upd_eq|now apply vle_acquire].
    + intros d e1 us1 h1 Hd. assert (d = c) as -> by (destruct p'; cbn in *; try contradiction; congruence). unfold after_cell. cbn [wcells]. rewrite nth_error_upd_eq by auto.
      intros E. injection E as <- <- <-. now apply vle_acquire.
    + intros d o old E. subst. contradiction.
    + intros _. destruct p'; auto.
  - intros b [Vb|[Vb|Vb]]; [left; exact Vb|destruct p; cbn in *; try discriminate; contradiction|destruct p; cbn in *; try discriminate; contradiction].
Qed.
Lemma una_good w s t i l k c o v : inv Plain s -> rel w s -> winv w -> nth_error (wths w) t = Some (WThread (UnA c o v) l k) ->
  choice_ok w (UnA c o v) k i -> good w s (wcont w t (UnA c o v) l k i).
Proof.
  intros I R V H C. pose proof (erase_thread w s t _ R H) as Hs. pose proof (i_thr Plain s I t _ Hs) as T. cbn in T. destruct T as [L Ho].
  destruct (locked_head w s t _ l k c v R V H eq_refl L) as (e & us & m & h & Hc & Km & Em & Ke). pose proof L as [Lc Ev].
  pose proof (read_latest k _ i m h eq_refl Km (C e us _ Hc)) as ->.
  cbn [WeakModel.wcont]. rewrite (access_cell_ok w k c e us (m :: h) Hc Ke). cbn [bind slot_get nth_error].
  rewrite (put_cell_ok _ _ _ _ Hc). cbn [bind]. rewrite (put_thread_ok _ _ (WThread (UnA c o v) l k)) by exact H. cbn [bind]. rewrite Em.
  exists (after_cell w t c (WLive e (clock w :: us) (m :: h)) (WThread (UnB c o v (tagged v)) l (acquire k (clock w) m))), []. split; [reflexivity|]. split.
  - eapply reread_winv; eauto; cbn; auto.
  - eapply follows_one; [exact I|eapply sc_allowed; [exact Hs|discriminate]| |].
    + rewrite (sc_cont debug s t _ _ Hs). cbn [erase_th erase wpc wheld tpc cont]. rewrite (load_ok _ _ _ Lc). cbn [bind]. rewrite (setpc_ok _ _ _ _ _ Hs). reflexivity.
    + eapply (rel_upd w _ s t (WThread (UnB c o v (tagged v)) l _)); [exact R|reflexivity| |now apply (rel_heap_same w)|apply R|apply R].
      unfold after_cell. cbn [wcells]. rewrite (cells_quiet _ _ _ _ _ _ Hc). apply R.
Qed.
Lemma unb_good w s t i l k c o v x : inv Plain s -> rel w s -> winv w -> nth_error (wths w) t = Some (WThread (UnB c o v x) l k) ->
  choice_ok w (UnB c o v x) k i -> good w s (wcont w t (UnB c o v x) l k i).
Proof.
  intros I R V H C. pose proof (erase_thread w s t _ R H) as Hs. pose proof (i_thr Plain s I t _ Hs) as T. cbn in T. destruct T as (L & Ho & ->).
  destruct (locked_head w s t _ l k c v R V H eq_refl L) as (e & us & m & h & Hc & Km & Em & Ke). pose proof L as [Lc Ev].
  pose proof (read_latest k _ i m h eq_refl Km (C e us _ Hc)) as ->. pose proof (target_even Plain s t _ l o I Hs Ho v c L) as Et.
  cbn [WeakModel.wcont]. rewrite (access_cell_ok w k c e us (m :: h) Hc Ke). cbn [bind slot_get nth_error]. rewrite Em, tagged_tagged, (untagged_even _ Et), !N.eqb_refl, assert_true. cbn [bind].
  rewrite (put_cell_ok _ _ _ _ Hc). cbn [bind]. rewrite (put_thread_ok _ _ (WThread (UnB c o v (tagged v)) l k)) by exact H. cbn [bind].
  exists (after_cell w t c (WLive e (clock w :: us) (m :: h)) (WThread (UnStore c o v) l (acquire k (clock w) m))), []. split; [reflexivity|]. split.
  - eapply reread_winv; eauto; cbn; auto.
  - eapply follows_one; [exact I|eapply sc_allowed; [exact Hs|discriminate]| |].
    + rewrite (sc_cont debug s t _ _ Hs). cbn [erase_th erase wpc wheld tpc cont]. rewrite (load_ok _ _ _ Lc). cbn [bind].
      rewrite tagged_tagged, (untagged_even _ Et), !N.eqb_refl, assert_true. cbn [bind]. rewrite (setpc_ok _ _ _ _ _ Hs). reflexivity.
    + eapply (rel_upd w _ s t (WThread (UnStore c o v) l _)); [exact R|reflexivity| |now apply (rel_heap_same w)|apply R|apply R].
      unfold after_cell. cbn [wcells]. rewrite (cells_quiet _ _ _ _ _ _ Hc). apply R.
Qed.
Lemma release_cases v q : (v = 0 /\ release_pc v q = Idle) \/ (v <> 0 /\ release_pc v q = RelSub v q).
Proof. unfold release_pc. destruct (N.eqb_spec v 0); auto. Qed.
Lemma unstore_good w s t i l k c o v : inv Plain s -> rel w s -> winv w -> nth_error (wths w) t = Some (WThread (UnStore c o v) l k) ->
  choice_ok w (UnStore c o v) k i -> good w s (wcont w t (UnStore c o v) l k i).
Proof.
  intros I R V H C. pose proof (erase_thread w s t _ R H) as Hs. pose proof (i_thr Plain s I t _ Hs) as T. cbn in T. destruct T as [L Ho].
  destruct (locked_head w s t _ l k c v R V H eq_refl L) as (e & us & m & h & Hc & Km & Em & Ke). pose proof L as [Lc Ev]. pose proof (w_t _ _ _ V t _ H) as Tv.
  pose proof (store_latest k _ i m h eq_refl Km (C e us _ Hc)) as ->. pose proof (target_even Plain s t _ l o I Hs Ho v c L) as Et.
  pose proof (w_c _ _ _ V c e us (m :: h) Hc) as Ci.
  set (nm := Msg (clock w) (target o v) (vadd k (clock w)) false).
  set (p' := match o with OGet => Idle | OSet q => release_pc v (Some (c, q)) end). set (l' := match o with OGet => if v =? 0 then l else v :: l | OSet _ => l end).
  set (ob' := match o with OGet => [Res t c OGet v] | OSet q => if v =? 0 then [Res t c (OSet q) 0] else [] end).
  assert (Ew : wcont w t (UnStore c o v) l k 0 = Ok (after_write w t c e us nm (m :: h) (WThread p' l' (vadd k (clock w))), ob')).
  { cbn [WeakModel.wcont]. rewrite (access_cell_ok w k c e us (m :: h) Hc Ke). cbn [bind insert firstn skipn app]. rewrite (put_cell_ok _ _ _ _ Hc). cbn [bind].
    unfold p', l', ob'. destruct o as [|q]; rewrite (put_thread_ok _ _ (WThread (UnStore c _ v) l k)) by exact H; reflexivity. }
  assert (Hst : forall b, stake p' l' b -> stake (UnStore c o v) l b).
  { intros b Sb. unfold p', l' in Sb. destruct o as [|q].
    - destruct Sb as [Sb|[[]|[[]|(? & ? & X & _)]]]; [|discriminate]. destruct (N.eqb_spec v 0) as [E|E]; [left; exact Sb|]. destruct Sb as [<-|Sb]; [|left; exact Sb]. right. right. right. exists c, v. auto.
    - destruct (release_cases v (Some (c, q))) as [[_ Er]|[Nv Er]]; rewrite Er in Sb.
      + destruct Sb as [Sb|[[]|[[]|(? & ? & X & _)]]]; [left; exact Sb|discriminate].
      + destruct Sb as [Sb|[[]|[<-|(? & ? & X & _)]]]; [left; exact Sb| |discriminate]. right. right. right. exists c, v. auto. }
  exists (after_write w t c e us nm (m :: h) (WThread p' l' (vadd k (clock w)))), ob'. split; [exact Ew|]. split.
  - eapply after_write_winv; eauto.
    + apply vle_add.
    + apply alt_cons_after; [|apply Ci]. rewrite Em. pose proof (tagged_odd v) as X. rewrite odd_even in X. destruct (N.even (tagged v)); [discriminate|reflexivity].
    + unfold nm. cbn [mval mview]. rewrite (untagged_even _ Et). intros ob Hob. apply vle_add.
      destruct (op_stake (UnStore c o v) l o c v eq_refl Ho (heap_nonnull w s _ ob I R Hob)) as [St _]. exact (t_stake _ _ _ _ Tv _ ob St Hob).
    + unfold nm. cbn [mval mview]. rewrite (untagged_even _ Et). intros Hr Hn. destruct (op_stake (UnStore c o v) l o c v eq_refl Ho Hn) as [St _].
      destruct (stake_ob _ _ w s t _ _ I R V H St (or_introl Hn)) as (ob & Hob & K & _). exists (ctor ob). split; [exact (o_used _ _ _ (w_o _ _ _ V _ ob Hob))|now apply vle_add].
    + eapply others_out; eauto. right. cbn. now rewrite Nat.eqb_refl.
    + eapply tinv_plain; [exact Tv|apply vle_add| | |].
      * intros b ob2 Hb Sb. exists ob2. split; [exact Hb|]. split; [auto|]. left. exact (Hst b Sb).
      * unfold p'. destruct o as [|q]; [exact Logic.I|]. destruct (release_cases v (Some (c, q))) as [[_ ->]|[_ ->]]; exact Logic.I.
      * intros d e1 us1 h1 Hd. exfalso. unfold p' in Hd. destruct o as [|q]; [destruct Hd|]. destruct (release_cases v (Some (c, q))) as [[_ Er]|[_ Er]]; rewrite Er in Hd; destruct Hd.
    + intros b [Vb|[[]|[]]]. left. unfold l'. destruct o; [|exact Vb]. destruct (v =? 0); [exact Vb|right; exact Vb].
  - eapply follows_one; [exact I|eapply sc_allowed; [exact Hs|discriminate]| |].
    + rewrite (sc_cont debug s t _ _ Hs). instantiate (1 := State (hp s) (upd (cells s) c (CLive (target o v))) (upd (threads s) t (Thread p' l')) (fresh s) (deleted s)).
      cbn [erase_th erase wpc wheld tpc cont]. rewrite (load_ok _ _ _ Lc). cbn [bind]. rewrite (setcell_ok _ _ _ _ Lc). cbn [bind].
      unfold p', l', ob'. destruct o as [|q]; erewrite setpc_ok by (cbn [threads]; exact Hs); reflexivity.
    + replace (Thread p' l') with (erase_th (WThread p' l' (vadd k (clock w)))).
      2: { unfold erase_th, p'. cbn [wpc wheld]. destruct o as [|q]; [reflexivity|]. destruct (release_cases v (Some (c, q))) as [[_ ->]|[_ ->]]; reflexivity. }
      eapply (rel_upd w _ s t); [exact R|reflexivity| |now apply (rel_heap_same w)|apply R|apply R]. exact (cells_write w s c e us _ (m :: h) nm R Hc).
Qed.
Lemma dta_good w s t i l k x : inv Plain s -> rel w s -> winv w -> nth_error (wths w) t = Some (WThread (DtA x) l k) ->
  good w s (wcont w t (DtA x) l k i).
Proof.
  intros I R V H. pose proof (erase_thread w s t _ R H) as Hs. pose proof (i_thr Plain s I t _ Hs) as T. cbn in T. pose proof (w_t _ _ _ V t _ H) as Tv.
  cbn [WeakModel.wcont]. rewrite (untagged_even x T), N.eqb_refl, assert_true. cbn [bind]. rewrite (put_thread_ok _ _ _ _ _ _ H). cbn [bind].
  eexists _, []. split; [reflexivity|]. split.
  - eapply (winv_thread _ _ w _ s t (WThread (DtA x) l k) (WThread (release_pc x None) l (vadd k (clock w)))); eauto; try reflexivity.
    + eapply tinv_plain; [exact Tv|apply vle_add| | |].
      * intros b ob2 Hb Sb. exists ob2. split; [exact Hb|]. split; [auto|]. left. destruct (release_cases x None) as [[_ Er]|[Nx Er]]; rewrite Er in Sb.
        -- destruct Sb as [Sb|[[]|[[]|(? & ? & X & _)]]]; [left; exact Sb|discriminate].
        -- destruct Sb as [Sb|[[]|[<-|(? & ? & X & _)]]]; [left; exact Sb| |discriminate]. right. right. left. split; [now apply untagged_even|exact Nx].
      * destruct (release_cases x None) as [[_ ->]|[_ ->]]; exact Logic.I.
      * intros d e1 us1 h1 Hd. destruct (release_cases x None) as [[_ Er]|[_ Er]]; rewrite Er in Hd; destruct Hd.
    + apply vle_add.
    + intros b [Vb|[[]|[]]]. left. exact Vb.
  - eapply follows_one; [exact I|eapply sc_allowed; [exact Hs|discriminate]| |].
    + rewrite (sc_cont debug s t _ _ Hs). cbn [erase_th erase wpc wheld tpc cont]. rewrite (untagged_even x T), N.eqb_refl, assert_true. cbn [bind]. rewrite (setpc_ok _ _ _ _ _ Hs). reflexivity.
    + replace (Thread (release_pc x None) l) with (erase_th (WThread (release_pc x None) l (vadd k (clock w)))).
      2: { unfold erase_th. cbn [wpc wheld]. destruct (release_cases x None) as [[_ ->]|[_ ->]]; reflexivity. }
      eapply (rel_upd w _ s t); [exact R|reflexivity|apply R|now apply (rel_heap_same w)|apply R|apply R].
Qed.
(** The constructor's AddRef, after which the cell exists. *)
Lemma ctadd_good w s t i l k c q : inv Plain s -> rel w s -> winv w -> nth_error (wths w) t = Some (WThread (CtAdd c q) l k) ->
  choice_ok w (CtAdd c q) k i -> good w s (wcont w t (CtAdd c q) l k i).
Proof.
  intros I R V H C. pose proof (erase_thread w s t _ R H) as Hs. pose proof (i_thr Plain s I t _ Hs) as T. cbn in T. destruct T as [Hb Hq].
  pose proof (w_t _ _ _ V t _ H) as Tv. assert (St : stake (CtAdd c q) l q) by (left; exact Hq).
  destruct (stake_ob _ _ w s t _ q I R V H St (or_intror Hq)) as (ob & Hob & K & Nq). cbn [know] in K.
  destruct (erase_cells_inv w s c _ R Hb) as (y & Hy & Ey). destruct y; try discriminate. clear Ey.
  destruct (rmw_count_ok _ _ w k q ob i N.succ V Hob K C) as (m & h & E & Er). pose proof (sc_count w s q ob m h R Hob E) as Hc.
  pose proof (live_facts Plain s q _ I Hc) as (_ & Aq & _). pose proof (aligned_even q Aq) as Eq.
  assert (Hlt : (c < length (wcells w))%nat) by (apply nth_error_Some; congruence).
  cbn [WeakModel.wcont]. rewrite Er. cbn [bind]. erewrite put_cell_ok by exact Hy. cbn [bind]. rewrite (put_thread_ok _ _ (WThread (CtAdd c q) l k)) by exact H. cbn [bind put_obj wheap counts wcells wths wfresh wdeleted used freed clock].
  set (k' := acquire k (clock w) m). set (hh := newmsg w k m N.succ :: m :: h). set (cm := Msg (clock w) q k' false).
  eexists _, []. split; [reflexivity|]. match goal with |- winv ?x /\ _ => set (w' := x) end. split.
  - assert (Ec : forall b ob2, wheap w' b = Some ob2 -> exists ob0, wheap w b = Some ob0 /\ ctor ob2 = ctor ob0).
    { intros b ob2. unfold w'. cbn [wheap]. unfold wset. destruct (N.eqb_spec q b) as [<-|Hne]; [|eauto]. intros X. injection X as <-. eauto. }
    assert (Hd : forall b x, q <> b -> wheap w b = Some x -> wser x <> wser ob) by (intros b x Hbq Hx Es; apply Hbq; symmetry; eapply ser_distinct; eauto).
    eapply (winv_gen reuse ops w w' s t _ (WThread Idle l k')); eauto.
    + intros b x. unfold w'. cbn [wheap counts]. unfold wset. destruct (N.eqb_spec q b) as [<-|Hne].
      * intros X. injection X as <-. right. exists ob. repeat split; auto.
      * intros Hx. right. exists x. split; [auto|]. split; [auto|]. split; [auto|]. left. split; [auto|]. apply cset_ne. eauto.
    + intros _ b x Hx. exact Hx.
    + intros u thu Hu Hthu d Ud. unfold w'. cbn [wcells]. destruct (Nat.eq_dec c d) as [<-|Hne]; [|rewrite nth_error_upd_ne by auto; split; eauto]. exfalso.
      pose proof (erase_thread w s u thu R Hthu) as Hsu. pose proof (i_thr Plain s I u _ Hsu) as Tu. unfold erase_th in Tu. cbn [tpc held] in Tu.
      pose proof (excl_one Plain s t (CtAdd c q) l c CBusy I Hs Hb ltac:(cbn; now rewrite Nat.eqb_refl) u _ Hu Hsu) as X. unfold erase_th in X. cbn [tpc] in X.
      destruct (wpc thu); cbn [wuses erase thread_ok excl] in *; try contradiction; subst; unfold live, locked in Tu; try (rewrite Nat.eqb_refl in X; discriminate).
      * destruct Tu as [[z Hz] _]. congruence.
      * destruct Tu as [[z Hz] _]. congruence.
    + eapply tinv_plain; [exact Tv|apply vle_acquire| |exact Logic.I|intros ? ? ? ? []].
      intros b ob2 Hb2 Sb. destruct (Ec b ob2 Hb2) as (ob0 & H0 & Ec0). exists ob0. split; [auto|]. split; [auto|]. left.
      destruct Sb as [Sb|[[]|[[]|(? & ? & X & _)]]]; [left; exact Sb|discriminate].
    + apply vle_acquire.
    + intros b x. unfold w' at 1. cbn [wheap]. unfold wset. destruct (N.eqb_spec q b) as [<-|Hne].
      * intros X. injection X as <-. left. eapply (oinv_rmw reuse ops w w' t (WThread (CtAdd c q) l k)); eauto; try reflexivity. unfold w'. cbn [counts wser]. now rewrite cset_eq.
      * intros Hx. right. split; [exact Hx|]. split; [unfold w'; cbn [counts]; apply cset_ne; eauto|]. split; [reflexivity|]. cbn [wpc wheld]. intros [Vb|[[]|[]]]. left. exact Vb.
    + intros d e1 us1 h1. unfold w' at 1. cbn [wcells]. destruct (Nat.eq_dec c d) as [<-|Hne].
      * rewrite nth_error_upd_eq by auto. intros X. injection X as <- <- <-. left. split.
        -- discriminate.
        -- intros [|j] m1 m2 Hj; [discriminate|destruct j; discriminate].
        -- intros m0 r X. injection X as <- <-. left. reflexivity.
        -- intros m0 r ob2 X Hob2. injection X as <- <-. unfold cm in *. cbn [mval mview] in *. rewrite (untagged_even q Eq) in Hob2. destruct (Ec q ob2 Hob2) as (ob0 & H0 & ->). rewrite Hob in H0. injection H0 as <-. now apply vle_acquire.
        -- intros _ m0 [<-|[]] _. unfold cm. cbn [mval mview]. rewrite (untagged_even q Eq). exists (ctor ob). split; [exact (o_used _ _ _ (w_o _ _ _ V q ob Hob))|now apply vle_acquire].
      * rewrite nth_error_upd_ne by auto. intros X. right. exists us1. split; [exact X|apply incl_refl].
  - eapply follows_one; [exact I|eapply sc_allowed; [exact Hs|discriminate]| |].
    + rewrite (sc_cont debug s t _ _ Hs). instantiate (1 := State (hset (hp s) q (Some (Tobj (wser ob) (S (N.to_nat (mval m))) false))) (upd (cells s) c (CLive q)) (upd (threads s) t (Thread Idle l)) (fresh s) (deleted s)).
      cbn [erase_th erase wpc wheld tpc cont]. rewrite (addref_ok Plain debug _ _ _ Hc eq_refl). cbn [bind]. erewrite setcell_ok by (cbn [sethp cells]; exact Hb). cbn [bind].
      erewrite setpc_ok by (cbn [sethp threads]; exact Hs). reflexivity.
    + eapply (rel_upd w _ s t (WThread Idle l k')); [exact R|reflexivity| | |apply R|apply R].
      * unfold w'. cbn [wcells]. rewrite map_upd. cbn [erase_cell hv mval]. now rewrite (r_ce w s R).
      * eapply (rel_heap_obj w _ s q ob (newobj w ob)); [exact I|exact R|exact Hob|reflexivity|reflexivity| |].
        -- intros n Hn. unfold w'. cbn [counts]. now apply cset_ne.
        -- unfold w'. cbn [counts]. cbn [newobj wser]. rewrite cset_eq. apply N2Nat.inj_succ.
Qed.

Theorem wcont_good w s t i p l k : inv Plain s -> rel w s -> winv w -> nth_error (wths w) t = Some (WThread p l k) -> p <> Idle -> choice_ok w p k i ->
  good w s (wcont w t p l k i).
Proof.
  intros I R V H Hp C. destruct p as [|a|a|a c|a c|a c|c o|c o old|c o v|c o v|c o v x|c o v|c q|x].
  - congruence.
  - eapply add_good; eauto.
  - eapply add_good; eauto.
  - eapply relsub_good; eauto.
  - eapply relassert_good; eauto.
  - eapply reldel_good; eauto.
  - eapply load_good; eauto.
  - eapply cas_good; eauto.
  - eapply critadd_good; eauto.
  - eapply una_good; eauto.
  - eapply unb_good; eauto.
  - eapply unstore_good; eauto.
  - eapply ctadd_good; eauto.
  - eapply dta_good; eauto.
Qed.
End Step.
