(** The invariant of the weak-memory machine and its relation to the sequentially consistent one. *)
From Verif Require Import Base AtomicRefModel AtomicRefSpec AtomicRefProofs AtomicRefStep WeakModel WeakSpec.
Local Open Scope N_scope.

(** ** Relation *)
(** A thread that has loaded thing_ but not yet locked corresponds to one that has not loaded yet. *)
Definition erase (p : pc) : pc := match p with LkCas c o _ => LkLoad c o | _ => p end.
Definition hv (h : history) : N := match h with m :: _ => mval m | [] => 0 end.
Definition erase_cell (x : wcell) : cell := match x with WNone => CNone | WBusy => CBusy | WLive _ _ h => CLive (hv h) end.
Definition erase_th (th : wthread) : thread := Thread (erase (wpc th)) (wheld th).
Definition erase_ob (w : wstate) (ob : wobj) : tobj := Tobj (wser ob) (N.to_nat (hv (counts w (wser ob)))) false.
Record rel (w : wstate) (s : state) : Prop := MkRel {
  r_th : threads s = map erase_th (wths w);
  r_ce : cells s = map erase_cell (wcells w);
  r_hp : forall a, hp s a = option_map (erase_ob w) (wheap w a);
  r_fr : fresh s = wfresh w;
  r_de : deleted s = wdeleted w }.

(** ** Invariant *)
Definition vle (a b : view) : Prop := forall e, a e = true -> b e = true.
(** Addresses a thread deals with: owned ones, and those carried by the operation in progress. *)
Definition sec_val (p : pc) : option (nat * N) :=
  match p with CritAdd c _ v | UnA c _ v | UnB c _ v _ | UnStore c _ v => Some (c, v) | _ => None end.
Definition closing (p : pc) (a : N) : Prop := match p with RelAssert b _ | RelDel b _ => b = a | _ => False end.
Definition stake (p : pc) (l : list N) (a : N) : Prop :=
  In a l \/ closing p a \/ (match p with NewP b | RelSub b _ => b = a | DtA x => untagged x = a /\ a <> 0 | _ => False end)
  \/ (exists c v, sec_val p = Some (c, v) /\ v = a /\ a <> 0).
(** Threads vouching for the accesses to an object that its counter does not yet know of. *)
Definition vouch (p : pc) (l : list N) (a : N) : Prop :=
  In a l \/ closing p a \/ (match p with RelSub b _ => b = a | _ => False end).

Definition rmw_tail (h : history) : Prop := forall j m, nth_error h j = Some m -> (S j < length h)%nat -> mrmw m = true.
Definition alt (h : history) : Prop := forall j m m', nth_error h (S j) = Some m -> N.even (mval m) = true -> nth_error h j = Some m' -> mrmw m' = true.

Section Inv.
Variables reuse ops : bool.

Record tinv (w : wstate) (th : wthread) : Prop := MkT {
  t_stake : forall a ob, stake (wpc th) (wheld th) a -> wheap w a = Some ob -> know th (ctor ob) = true;
  t_close : forall a ob, closing (wpc th) a -> wheap w a = Some ob -> forall x, In x (accs ob) -> know th x = true;
  t_last : forall a k ob, wpc th = RelAssert a k -> wheap w a = Some ob -> exists m h, counts w (wser ob) = m :: h /\ know th (mid m) = true;
  t_sec : forall c v, sec_val (wpc th) = Some (c, v) -> exists e us m h, nth_error (wcells w) c = Some (WLive e us (m :: h)) /\ know th (mid m) = true;
  t_uses : forall c e us h, wuses (wpc th) c -> nth_error (wcells w) c = Some (WLive e us h) -> know th e = true;
  t_old : forall c o old, wpc th = LkCas c o old -> N.even old = true /\ (reuse = false -> old <> 0 -> exists x, used w old = Some x /\ know th x = true);
  t_ops : ops = false -> match wpc th with LkLoad _ _ | LkCas _ _ _ => False | _ => True end }.

Record oinv (w : wstate) (a : N) (ob : wobj) : Prop := MkO {
  o_ne : counts w (wser ob) <> [];
  o_tail : rmw_tail (counts w (wser ob));
  o_used : used w a = Some (ctor ob);
  o_accs : forall x, In x (accs ob) -> (exists m h, counts w (wser ob) = m :: h /\ mview m x = true) \/
    exists t th, nth_error (wths w) t = Some th /\ know th x = true /\ vouch (wpc th) (wheld th) a }.

Record cinv (w : wstate) (e : nat) (us : list nat) (h : history) : Prop := MkC {
  c_ne : h <> [];
  c_alt : alt h;
  c_head : forall m r, h = m :: r -> In (mid m) (e :: us);
  c_view : forall m r ob, h = m :: r -> wheap w (untagged (mval m)) = Some ob -> mview m (ctor ob) = true;
  c_all : reuse = false -> forall m, In m h -> untagged (mval m) <> 0 -> exists x, used w (untagged (mval m)) = Some x /\ mview m x = true }.

Record winv (w : wstate) : Prop := MkW {
  w_t : forall t th, nth_error (wths w) t = Some th -> tinv w th;
  w_o : forall a ob, wheap w a = Some ob -> oinv w a ob;
  w_c : forall c e us h, nth_error (wcells w) c = Some (WLive e us h) -> cinv w e us h }.
End Inv.

(** ** Basics *)
Lemma vle_refl k : vle k k. Proof. intros e H; exact H. Qed.
Lemma vle_trans a b c : vle a b -> vle b c -> vle a c. Proof. intros H1 H2 e H; auto. Qed.
Lemma vle_add k e : vle k (vadd k e). Proof. intros x H. unfold vadd. rewrite H. apply orb_true_r. Qed.
Lemma vadd_self k e : vadd k e e = true. Proof. unfold vadd. now rewrite Nat.eqb_refl. Qed.
Lemma vle_join_l a b : vle a (vjoin a b). Proof. intros x H. unfold vjoin. now rewrite H. Qed.
Lemma vle_join_r a b : vle b (vjoin a b). Proof. intros x H. unfold vjoin. rewrite H. apply orb_true_r. Qed.
Lemma vle_acquire k e m : vle k (acquire k e m).
Proof. unfold acquire. eapply vle_trans; [apply vle_add|]. eapply vle_trans; [apply vle_add|]. apply vle_join_l. Qed.
Lemma vle_relaxed k e m : vle k (relaxed k e m).
Proof. unfold relaxed. eapply vle_trans; [apply vle_add|]. apply vle_add. Qed.
Lemma acquire_ev k e m : acquire k e m e = true.
Proof. unfold acquire. apply vle_join_l, vle_add, vadd_self. Qed.
Lemma acquire_mid k e m : acquire k e m (mid m) = true.
Proof. unfold acquire. apply vle_join_l, vadd_self. Qed.
Lemma acquire_view k e m : vle (mview m) (acquire k e m).
Proof. unfold acquire. apply vle_join_r. Qed.
Lemma relaxed_ev k e m : relaxed k e m e = true.
Proof. unfold relaxed. apply vle_add, vadd_self. Qed.

Lemma map_upd {A B} (f : A -> B) l i x : map f (upd l i x) = upd (map f l) i (f x).
Proof. revert i. induction l as [|y l IH]; intros [|i]; cbn; auto. now rewrite IH. Qed.
Lemma erase_thread w s t th : rel w s -> nth_error (wths w) t = Some th -> nth_error (threads s) t = Some (erase_th th).
Proof. intros R H. rewrite (r_th w s R). now apply map_nth_error. Qed.
Lemma erase_thread_inv w s t th : rel w s -> nth_error (threads s) t = Some th -> exists th', nth_error (wths w) t = Some th' /\ th = erase_th th'.
Proof.
  intros R H. rewrite (r_th w s R) in H. rewrite nth_error_map in H. destruct (nth_error (wths w) t) as [th'|] eqn:E; [|discriminate].
  injection H as <-. eauto.
Qed.
Lemma erase_cells w s c x : rel w s -> nth_error (wcells w) c = Some x -> nth_error (cells s) c = Some (erase_cell x).
Proof. intros R H. rewrite (r_ce w s R). now apply map_nth_error. Qed.
Lemma erase_cells_inv w s c x : rel w s -> nth_error (cells s) c = Some x -> exists y, nth_error (wcells w) c = Some y /\ x = erase_cell y.
Proof.
  intros R H. rewrite (r_ce w s R) in H. rewrite nth_error_map in H. destruct (nth_error (wcells w) c) as [y|] eqn:E; [|discriminate].
  injection H as <-. eauto.
Qed.
Lemma heap_obj w s a ob : rel w s -> wheap w a = Some ob -> hp s a = Some (erase_ob w ob).
Proof. intros R H. rewrite (r_hp w s R), H. reflexivity. Qed.
Lemma heap_obj_inv w s a ob : rel w s -> hp s a = Some ob -> exists ob', wheap w a = Some ob' /\ ob = erase_ob w ob'.
Proof. intros R H. rewrite (r_hp w s R) in H. destruct (wheap w a) as [ob'|]; [|discriminate]. injection H as <-. eauto. Qed.
Lemma heap_none w s a : rel w s -> wheap w a = None <-> hp s a = None.
Proof. intros R. rewrite (r_hp w s R). destruct (wheap w a); cbn; split; congruence. Qed.

(** Only the latest message can be read by someone who knows it, or updated. *)
Lemma read_latest k h i m r : h = m :: r -> k (mid m) = true -> read_ok k h i -> i = 0%nat.
Proof. intros -> K [_ H]. destruct i as [|i]; [reflexivity|]. specialize (H 0%nat m ltac:(lia) eq_refl). congruence. Qed.
Lemma rmw_latest k h i : rmw_tail h -> rmw_ok k h i -> i = 0%nat.
Proof.
  intros T [[L _] F]. destruct i as [|j]; [reflexivity|exfalso]. cbn in F. destruct (nth_error h j) as [m|] eqn:E; [|apply nth_error_None in E; lia].
  pose proof (T j m E ltac:(lia)) as X. specialize (F m eq_refl). congruence.
Qed.
Lemma cas_latest k h i old m : alt h -> N.even old = true -> cas_ok k h i old -> nth_error h i = Some m -> mval m = old -> i = 0%nat.
Proof.
  intros A Ev [[L _] F] Hm Hv. specialize (F m Hm Hv). destruct i as [|j]; [reflexivity|exfalso]. cbn in F.
  destruct (nth_error h j) as [m'|] eqn:E; [|apply nth_error_None in E; lia].
  rewrite <- Hv in Ev. pose proof (A j m m' Hm Ev E) as X. specialize (F m' eq_refl). congruence.
Qed.
Lemma store_latest k h i m r : h = m :: r -> k (mid m) = true -> store_ok k h i -> i = 0%nat.
Proof. intros -> K (_ & H & _). destruct i as [|i]; [reflexivity|]. specialize (H 0%nat m ltac:(lia) eq_refl). congruence. Qed.

Lemma rmw_tail_cons m h : mrmw m = true -> rmw_tail h -> rmw_tail (m :: h).
Proof. intros R T [|j] x H L; cbn in *; [injection H as <-; exact R|apply (T j); auto; lia]. Qed.
Lemma alt_cons_odd m m0 r : mrmw m = true -> alt (m0 :: r) -> alt (m :: m0 :: r).
Proof. intros R A [|j] x y Hx Ev Hy; cbn [nth_error] in *; [injection Hy as <-; exact R|exact (A j x y Hx Ev Hy)]. Qed.
Lemma alt_cons_after m m0 r : N.even (mval m0) = false -> alt (m0 :: r) -> alt (m :: m0 :: r).
Proof. intros R A [|j] x y Hx Ev Hy; cbn [nth_error] in *; [injection Hx as <-; congruence|exact (A j x y Hx Ev Hy)]. Qed.

(** What the sequentially consistent invariant says about addresses somebody deals with. *)
Lemma stake_alive w s t th a : inv Plain s -> rel w s -> nth_error (wths w) t = Some th -> stake (wpc th) (wheld th) a -> a <> 0 ->
  (0 < handles s a)%nat \/ (0 < owners s a)%nat.
Proof.
  intros I R H Hs Ha. pose proof (erase_thread w s t th R H) as Hth. pose proof (handles_thr s t _ a Hth) as L.
  pose proof (sum_ge (fun th => owner a (tpc th)) _ _ _ Hth) as G. fold (owners s a) in G. unfold tref, erase_th in L. cbn [tpc held] in L. unfold erase_th in G. cbn beta iota in G. cbn [tpc] in G.
  destruct Hs as [Hs|[Hs|[Hs|(c & v & Hs & -> & _)]]].
  - left. apply (count_occ_In N.eq_dec) in Hs. lia.
  - right. destruct (wpc th); cbn [closing] in Hs; try contradiction; subst; cbn [owner erase] in G; rewrite refto_self in G by auto; lia.
  - destruct (wpc th); try contradiction; subst; cbn [owner pc_refs erase] in *.
    + right. rewrite refto_self in G by auto. lia.
    + left. rewrite refto_self in L by auto. lia.
    + left. destruct Hs as [<- _]. rewrite refto_self in L by auto. lia.
  - left. pose proof (i_thr Plain s I t _ Hth) as T. unfold erase_th in T. cbn [tpc held] in T.
    assert (locked (cells s) c a) as [Lc Ev] by (destruct (wpc th); cbn [sec_val] in Hs; try discriminate; injection Hs as <- <-; cbn [erase thread_ok] in T; tauto).
    pose proof (handles_cell s c _ a Lc) as X. cbn [cell_refs] in X. rewrite untagged_tagged, (untagged_even a Ev), refto_self in X by auto. lia.
Qed.
Lemma stake_live w s t th a : inv Plain s -> rel w s -> nth_error (wths w) t = Some th -> stake (wpc th) (wheld th) a -> a <> 0 -> wheap w a <> None.
Proof.
  intros I R H Hs Ha E. apply (heap_none w s a R) in E. pose proof (addr_case Plain s a I) as Z. rewrite E in Z. cbn in Z.
  destruct (stake_alive w s t th a I R H Hs Ha); lia.
Qed.
(** While one thread is deleting, nobody else deals with the object. *)
Lemma closing_alone w s t th a u thu : inv Plain s -> rel w s -> nth_error (wths w) t = Some th -> closing (wpc th) a ->
  nth_error (wths w) u = Some thu -> stake (wpc thu) (wheld thu) a -> a <> 0 -> t = u /\ ~ In a (wheld thu).
Proof.
  intros I R H Hc Hu Hs Ha. pose proof (erase_thread w s t th R H) as Hth. pose proof (erase_thread w s u thu R Hu) as Hthu.
  pose proof (addr_case Plain s a I) as Z.
  assert (Ow : owner a (tpc (erase_th th)) = 1%nat).
  { unfold erase_th. cbn [tpc]. destruct (wpc th); cbn [closing] in Hc; try contradiction; subst; cbn [owner erase]; now rewrite refto_self. }
  pose proof (sum_ge (fun th => owner a (tpc th)) _ _ _ Hth) as G. fold (owners s a) in G. cbn beta in G. rewrite Ow in G.
  assert (Hz : handles s a = 0%nat). { destruct (hp s a) as [ob|]; cbn in Z; [|lia]. assert (cnt ob = 0)%nat by lia. lia. }
  assert (Hn : ~ In a (wheld thu)).
  { intros X. pose proof (handles_thr s u _ a Hthu) as L. unfold tref, erase_th in L. cbn [held] in L. apply (count_occ_In N.eq_dec) in X. lia. }
  split; [|exact Hn]. destruct (Nat.eq_dec t u) as [|Hne]; [auto|exfalso].
  assert (O1 : (owners s a <= 1)%nat) by (destruct (hp s a) as [ob|]; cbn in Z; lia).
  pose proof (sum_two (fun th => owner a (tpc th)) _ _ _ _ _ Hne Hth Hthu) as T2. fold (owners s a) in T2. cbn beta in T2. rewrite Ow in T2.
  pose proof (stake_alive w s u thu a I R Hu Hs Ha) as X.
  assert (owner a (tpc (erase_th thu)) = 0%nat) as O0 by lia. pose proof (handles_thr s u _ a Hthu) as L. rewrite Hz in L. unfold tref, erase_th in L. cbn [tpc held] in L.
  unfold erase_th in O0. cbn [tpc] in O0.
  destruct Hs as [Hs|[Hs|[Hs|(c & v & Hs & -> & _)]]].
  - contradiction.
  - destruct (wpc thu); cbn [closing] in Hs; try contradiction; subst; cbn [owner erase] in O0; rewrite refto_self in O0 by auto; lia.
  - destruct (wpc thu); try contradiction; subst; cbn [owner pc_refs erase] in *.
    + rewrite refto_self in O0 by auto. lia.
    + rewrite refto_self in L by auto. lia.
    + destruct Hs as [<- _]. rewrite refto_self in L by auto. lia.
  - pose proof (i_thr Plain s I u _ Hthu) as T. unfold erase_th in T. cbn [tpc held] in T.
    assert (locked (cells s) c a) as [Lc Ev] by (destruct (wpc thu); cbn [sec_val] in Hs; try discriminate; injection Hs as <- <-; cbn [erase thread_ok] in T; tauto).
    pose proof (handles_cell s c _ a Lc) as Y. cbn [cell_refs] in Y. rewrite untagged_tagged, (untagged_even a Ev), refto_self in Y by auto. lia.
Qed.
Lemma ser_distinct w s a b oa ob : inv Plain s -> rel w s -> wheap w a = Some oa -> wheap w b = Some ob -> wser oa = wser ob -> a = b.
Proof.
  intros I R Ha Hb E. destruct (i_ser Plain s I) as (A & _). apply (A a b (erase_ob w oa) (erase_ob w ob)); [eapply heap_obj; eauto..|exact E].
Qed.
Lemma ser_fresh w s a ob : inv Plain s -> rel w s -> wheap w a = Some ob -> (wser ob < wfresh w)%nat.
Proof.
  intros I R Ha. destruct (i_ser Plain s I) as (_ & B & _). rewrite <- (r_fr w s R). apply B. right. exists a, (erase_ob w ob). split; [eapply heap_obj; eauto|reflexivity].
Qed.
Lemma heap_nonnull w s a ob : inv Plain s -> rel w s -> wheap w a = Some ob -> a <> 0.
Proof. intros I R Ha. now destruct (live_facts Plain s a _ I (heap_obj w s a ob R Ha)). Qed.
