(** Beginning operations; executions. *)
From Verif Require Import Base AtomicRefModel AtomicRefSpec AtomicRefProofs AtomicRefStep WeakModel WeakSpec WeakInv WeakFrame WeakStep WeakStep2.
Local Open Scope N_scope.

Lemma uses_wuses p c : uses (erase p) c -> wuses p c.
Proof. destruct p; cbn; auto. Qed.
Lemma in_remove1_ne a b l : In b l -> b <> a -> In b (remove1 a l).
Proof.
  induction l as [|c l IH]; cbn; [auto|]. intros H Hn. destruct (N.eqb_spec a c) as [E|E], H as [H|H]; subst; cbn; auto; congruence.
Qed.
Section Step.
Variables debug cas_acquire reuse ops : bool.
Hypothesis Hyp : cas_acquire = true \/ reuse = false \/ ops = false.
Notation tinv := (tinv reuse ops). Notation cinv := (cinv reuse). Notation winv := (winv reuse ops).
Notation wstart := (wstart debug). Notation wstep := (wstep debug cas_acquire). Notation wrun := (wrun debug cas_acquire).
Notation wallowed := (wallowed reuse ops). Notation wlegal := (wlegal debug cas_acquire reuse ops).
Notation run := (run Plain debug). Notation step := (step Plain debug). Notation legal := (legal Plain debug).
Notation good := (good debug reuse ops).

Lemma tinv_mono w w' p l k k' : wheap w' = wheap w -> counts w' = counts w -> wcells w' = wcells w -> used w' = used w -> vle k k' ->
  tinv w (WThread p l k) -> tinv w' (WThread p l k').
Proof.
  intros E1 E2 E3 E4 Hk T. split; cbn [wpc wheld know]; rewrite ?E1, ?E2, ?E3, ?E4.
  - intros a ob Hs Ha. apply Hk. exact (t_stake _ _ _ _ T a ob Hs Ha).
  - intros a ob Hs Ha x Hx. apply Hk. exact (t_close _ _ _ _ T a ob Hs Ha x Hx).
  - intros a q ob Hs Ha. destruct (t_last _ _ _ _ T a q ob Hs Ha) as (m & h & E & K). exists m, h. split; [exact E|now apply Hk].
  - intros c v Hs. destruct (t_sec _ _ _ _ T c v Hs) as (e & us & m & h & Hc & K). exists e, us, m, h. split; [exact Hc|now apply Hk].
  - intros c e us h Hs Hc. apply Hk. exact (t_uses _ _ _ _ T c e us h Hs Hc).
  - intros c o old Hp. destruct (t_old _ _ _ _ T c o old Hp) as [Ev Hx]. split; [exact Ev|]. intros Hr Hn. destruct (Hx Hr Hn) as (x & Hu & K). exists x. split; [exact Hu|now apply Hk].
  - exact (t_ops _ _ _ _ T).
Qed.
Lemma stake_idle l b : stake Idle l b -> In b l.
Proof. intros [H|[[]|[[]|(? & ? & X & _)]]]; [exact H|discriminate]. Qed.
Lemma sc_start s t l a : nth_error (threads s) t = Some (Thread Idle l) -> step s (EStart t a) = start debug s t l a.
Proof. intros H. cbn [AtomicRefModel.step]. now rewrite (slot_get_ok _ _ _ H). Qed.

(** Steps that only set the thread's program counter. *)
Lemma pc_step w s t l k p' l' o a : inv Plain s -> rel w s -> winv w -> nth_error (wths w) t = Some (WThread Idle l k) ->
  tinv (W (wheap w) (counts w) (wcells w) (upd (wths w) t (WThread p' l' k)) (wfresh w) (wdeleted w) (used w) (freed w) (S (clock w))) (WThread p' l' k) ->
  (forall b, In b l -> vouch p' l' b) -> erase p' = p' -> allowed s (EStart t a) ->
  start debug s t l a = Ok (State (hp s) (cells s) (upd (threads s) t (Thread p' l')) (fresh s) (deleted s), o) ->
  good w s (do w <- put_thread w t p' l' k; Ok (w, o)).
Proof.
  intros I R V H T Hv Ep A E. rewrite (put_thread_ok _ _ _ _ _ _ H). cbn [bind]. eexists _, o. split; [reflexivity|]. split.
  - eapply (winv_thread _ _ w _ s t (WThread Idle l k) (WThread p' l' k)); eauto; try reflexivity; [apply vle_refl|].
    cbn [wpc wheld]. intros b [Vb|[[]|[]]]. auto.
  - eapply follows_one; [exact I|exact A|rewrite (sc_start s t l a (erase_thread w s t _ R H)); exact E|].
    replace (Thread p' l') with (erase_th (WThread p' l' k)) by (unfold erase_th; cbn [wpc wheld]; now rewrite Ep).
    eapply (rel_upd w _ s t); [exact R|reflexivity|apply R|now apply (rel_heap_same w)|apply R|apply R].
Qed.

(** A cell that nobody uses changes. *)
Lemma unused_cell_winv w s t l k c x p' l' k' : inv Plain s -> rel w s -> winv w -> nth_error (wths w) t = Some (WThread Idle l k) ->
  (c < length (wcells w))%nat -> (forall u thu, nth_error (wths w) u = Some thu -> ~ wuses (wpc thu) c) -> vle k k' ->
  let w' := after_cell w t c x (WThread p' l' k') in
  (forall e us h, x = WLive e us h -> cinv w' e us h) -> tinv w' (WThread p' l' k') -> (forall b, In b l -> vouch p' l' b) -> winv w'.
Proof.
  intros I R V H Hlt Hu Hk w' Cn T Hv. eapply (winv_gen reuse ops w w' s t _ (WThread p' l' k')); eauto.
  - apply hcond_same; reflexivity.
  - intros _ b y Hy. exact Hy.
  - intros u thu Hne Hthu d Ud. unfold w', after_cell. cbn [wcells]. destruct (Nat.eq_dec c d) as [<-|Hd]; [destruct (Hu u thu Hthu Ud)|]. rewrite nth_error_upd_ne by auto. split; eauto.
  - intros b ob Hb. right. repeat split; auto. cbn [wpc wheld]. intros [Vb|[[]|[]]]. auto.
  - intros d e us h. unfold w' at 1, after_cell. cbn [wcells]. destruct (Nat.eq_dec c d) as [<-|Hd].
    + rewrite nth_error_upd_eq by auto. intros E. injection E as ->. left. now apply Cn.
    + rewrite nth_error_upd_ne by auto. intros E. right. exists us. split; [exact E|apply incl_refl].
Qed.

Lemma new_good w s t l k a i : inv Plain s -> rel w s -> winv w -> nth_error (wths w) t = Some (WThread Idle l k) ->
  wheap w a = None -> a <> 0 -> a mod 8 = 0 -> (reuse = false -> used w a = None) -> good w s (wstart w t l k (WDo (ANew a)) i).
Proof.
  intros I R V H Hn N0 Al Hu. pose proof (erase_thread w s t _ R H) as Hs. pose proof (w_t _ _ _ V t _ H) as Tv.
  assert (Hf : forall b x, wheap w b = Some x -> wser x <> wfresh w) by (intros b x Hx E; pose proof (ser_fresh w s b x I R Hx); lia).
  cbn [WeakModel.wstart]. erewrite put_thread_ok by exact H. cbn [bind wheap counts wcells wths wfresh wdeleted used freed clock].
  set (k' := vadd (vjoin k (freed w a)) (clock w)). eexists _, []. split; [reflexivity|]. match goal with |- winv ?x /\ _ => set (w' := x) end.
  assert (Hk : vle k k') by (eapply vle_trans; [apply vle_join_l|apply vle_add]).
  split.
  - eapply (winv_gen reuse ops w w' s t _ (WThread (NewP a) l k')); eauto.
    + intros b x. unfold w'. cbn [wheap counts]. unfold wset. destruct (N.eqb_spec a b) as [<-|Hne]; [auto|]. intros Hx. right. exists x. split; [auto|]. split; [auto|]. split; [auto|]. left. split; [auto|]. apply cset_ne. eauto.
    + intros Hr b x Hx. unfold w'. cbn [used]. destruct (N.eqb_spec a b) as [<-|Hne]; [rewrite (Hu Hr) in Hx; discriminate|exact Hx].
    + intros. now apply ccond_same.
    + split; cbn [wpc wheld know closing sec_val wuses]; try (intros; discriminate); try (intros; contradiction); auto.
      intros b ob Sb. unfold w'. cbn [wheap]. unfold wset. destruct (N.eqb_spec a b) as [<-|Hne].
      * intros X. injection X as <-. cbn [ctor]. apply vadd_self.
      * intros Hx. apply Hk. apply (t_stake _ _ _ _ Tv b ob); [|exact Hx]. left. destruct Sb as [Sb|[[]|[Sb|(? & ? & X & _)]]]; [exact Sb|congruence|discriminate].
    + intros b x. unfold w' at 1. cbn [wheap]. unfold wset. destruct (N.eqb_spec a b) as [<-|Hne].
      * intros X. injection X as <-. left. split; unfold w'; cbn [counts used wser ctor accs].
        -- rewrite cset_eq. discriminate.
        -- rewrite cset_eq. intros j m Hj Hl. cbn in Hl. lia.
        -- now rewrite N.eqb_refl.
        -- intros x [].
      * intros Hx. right. split; [exact Hx|]. unfold w'. cbn [counts used]. split; [apply cset_ne; eauto|]. split; [now apply N.eqb_neq in Hne as ->|]. cbn [wpc wheld]. intros [Vb|[[]|[]]]. left. exact Vb.
    + intros c e us h Hc. right. exists us. split; [exact Hc|apply incl_refl].
  - eapply follows_one; [exact I| |rewrite (sc_start s t l (ANew a) Hs); cbn [start]; erewrite setpc_ok by exact Hs; reflexivity|].
    + exists (Thread Idle l). split; [exact Hs|]. split; [reflexivity|]. split; [now apply (heap_none w s a R)|auto].
    + cbn [hp cells threads fresh deleted]. eapply (rel_upd w _ s t (WThread (NewP a) l k')); [exact R|reflexivity|apply R| |unfold w'; cbn [wfresh]; now rewrite (r_fr w s R)|apply R].
      intros b. unfold w'. cbn [wheap]. unfold hset, wset. destruct (N.eqb_spec a b) as [<-|Hne].
      * cbn [option_map]. unfold erase_ob. cbn [wser counts]. rewrite cset_eq. cbn. now rewrite (r_fr w s R).
      * rewrite (r_hp w s R). destruct (wheap w b) as [x|] eqn:Hx; [|reflexivity]. cbn [option_map]. unfold erase_ob. cbn [counts]. rewrite cset_ne; [reflexivity|eauto].
Qed.

Lemma give_good w s t l k a u i : inv Plain s -> rel w s -> winv w -> nth_error (wths w) t = Some (WThread Idle l k) ->
  In a l -> (u < length (wths w))%nat -> good w s (wstart w t l k (WDo (AGive a u)) i).
Proof.
  intros I R V H Ha Hu. pose proof (erase_thread w s t _ R H) as Hs. pose proof (w_t _ _ _ V t _ H) as Tv.
  assert (Ht : (t < length (wths w))%nat) by (apply nth_error_Some; congruence).
  cbn [WeakModel.wstart]. rewrite (put_thread_ok _ _ _ _ _ _ H). cbn [bind wths].
  set (ts1 := upd (wths w) t (WThread Idle (remove1 a l) k)). assert (Hu1 : (u < length ts1)%nat) by (unfold ts1; now rewrite upd_length).
  destruct (nth_error ts1 u) as [[pu lu ku]|] eqn:Eu; [|apply nth_error_None in Eu; lia]. rewrite (slot_get_ok _ _ _ Eu). cbn [bind wpc wheld know].
  erewrite put_thread_ok by exact Eu. cbn [bind wheap counts wcells wths wfresh wdeleted used freed clock].
  eexists _, []. split; [reflexivity|]. match goal with |- winv ?x /\ _ => set (w' := x) end.
  assert (Hths : wths w' = upd ts1 u (WThread pu (a :: lu) (vjoin ku k))) by reflexivity.
  assert (Hpu : (u = t /\ pu = Idle /\ lu = remove1 a l /\ ku = k) \/ (u <> t /\ nth_error (wths w) u = Some (WThread pu lu ku))).
  { unfold ts1 in Eu. destruct (Nat.eq_dec t u) as [<-|Hne]; [rewrite nth_error_upd_eq in Eu by auto; injection Eu as <- <- <-; auto|rewrite nth_error_upd_ne in Eu by auto; auto]. }
  split.
  - split.
    + intros v thv Hv. rewrite Hths in Hv. destruct (Nat.eq_dec u v) as [<-|Huv].
      * rewrite nth_error_upd_eq in Hv by auto. injection Hv as <-.
        destruct Hpu as [(-> & -> & -> & ->)|[Hne Hpu]].
        -- eapply tinv_plain; [exact Tv|apply vle_join_l| |exact Logic.I|intros ? ? ? ? []].
           intros b ob Hb Sb. apply stake_idle in Sb. exists ob. split; [exact Hb|]. split; [auto|]. left. left. destruct Sb as [<-|Sb]; [exact Ha|exact (in_remove1 _ _ _ Sb)].
        -- pose proof (w_t _ _ _ V u _ Hpu) as Tu. assert (Tu' : tinv w' (WThread pu lu (vjoin ku k))) by (eapply tinv_mono; [..|exact Tu]; try reflexivity; apply vle_join_l).
           split; cbn [wpc wheld know]; try apply Tu'. intros b ob Sb Hb. destruct Sb as [[<-|Sb]|Sb].
           ++ apply vle_join_r. apply (t_stake _ _ _ _ Tv a ob); [left; exact Ha|exact Hb].
           ++ apply (t_stake _ _ _ _ Tu' b ob); [left; exact Sb|exact Hb].
           ++ apply (t_stake _ _ _ _ Tu' b ob); [right; exact Sb|exact Hb].
      * rewrite nth_error_upd_ne in Hv by auto. unfold ts1 in Hv. destruct (Nat.eq_dec t v) as [<-|Htv].
        -- rewrite nth_error_upd_eq in Hv by auto. injection Hv as <-. eapply tinv_plain; [exact Tv|apply vle_refl| |exact Logic.I|intros ? ? ? ? []].
           intros b ob Hb Sb. apply stake_idle in Sb. exists ob. split; [exact Hb|]. split; [auto|]. left. left. exact (in_remove1 _ _ _ Sb).
        -- rewrite nth_error_upd_ne in Hv by auto. pose proof (w_t _ _ _ V v _ Hv) as Tw. destruct thv as [pv lv kv]. eapply tinv_mono; [..|exact Tw]; try reflexivity. apply vle_refl.
    + intros b ob Hb. pose proof (w_o _ _ _ V b ob Hb) as O. split; try apply O. intros x Hx. destruct (o_accs _ _ _ O x Hx) as [L|(v & thv & Hv & Kv & Vv)]; [left; exact L|right].
      rewrite Hths. destruct (Nat.eq_dec u v) as [<-|Huv].
      * exists u, (WThread pu (a :: lu) (vjoin ku k)). rewrite nth_error_upd_eq by auto. split; [reflexivity|]. cbn [know wpc wheld].
        destruct Hpu as [(-> & -> & -> & ->)|[Hne Hpu]].
        -- rewrite H in Hv. injection Hv as <-. split; [now apply vle_join_l|]. destruct Vv as [Vv|[[]|[]]]. left. cbn [wheld] in Vv.
           destruct (N.eq_dec b a) as [->|Hba]; [left; reflexivity|right; now apply in_remove1_ne].
        -- rewrite Hpu in Hv. injection Hv as <-. split; [now apply vle_join_l|]. destruct Vv as [Vv|Vv]; [left; right; exact Vv|right; exact Vv].
      * destruct (Nat.eq_dec t v) as [<-|Htv].
        -- rewrite H in Hv. injection Hv as <-. destruct Vv as [Vv|[[]|[]]]. cbn [wheld know] in *. destruct (N.eq_dec b a) as [->|Hba].
           ++ exists u, (WThread pu (a :: lu) (vjoin ku k)). rewrite nth_error_upd_eq by auto. split; [reflexivity|]. cbn [know wpc wheld]. split; [now apply vle_join_r|]. left. left. reflexivity.
           ++ exists t, (WThread Idle (remove1 a l) k). rewrite nth_error_upd_ne by auto. unfold ts1. rewrite nth_error_upd_eq by auto. split; [reflexivity|]. split; [exact Kv|]. left. now apply in_remove1_ne.
        -- exists v, thv. rewrite nth_error_upd_ne by auto. unfold ts1. rewrite nth_error_upd_ne by auto. auto.
    + intros c e us h Hc. pose proof (w_c _ _ _ V c e us h Hc) as C. split; try apply C.
  - set (sts := upd (threads s) t (Thread Idle (remove1 a l))).
    assert (Esu : nth_error sts u = Some (erase_th (WThread pu lu ku))).
    { unfold sts. destruct Hpu as [(-> & -> & -> & ->)|[Hne Hpu]]; [apply nth_error_upd_eq; apply nth_error_Some; congruence|]. rewrite nth_error_upd_ne by auto. exact (erase_thread w s u _ R Hpu). }
    eapply follows_one; [exact I| |rewrite (sc_start s t l (AGive a u) Hs); cbn [start]; rewrite (setpc_ok _ _ _ _ _ Hs); cbn [bind threads]; fold sts; rewrite (slot_get_ok _ _ _ Esu); cbn [bind]; erewrite setpc_ok by exact Esu; reflexivity|].
    + exists (Thread Idle l). split; [exact Hs|]. split; [reflexivity|]. split; [exact Ha|]. rewrite (r_th w s R), map_length. exact Hu.
    + cbn [hp cells threads fresh deleted]. split; cbn [hp cells threads fresh deleted]; [|apply R|now apply (rel_heap_same w)|apply R|apply R].
      rewrite Hths. unfold ts1. rewrite !map_upd, <- (r_th w s R). reflexivity.
Qed.

Lemma ctor_good w s t l k c q i : inv Plain s -> rel w s -> winv w -> nth_error (wths w) t = Some (WThread Idle l k) ->
  nth_error (wcells w) c = Some WNone -> q = 0 \/ In q l -> good w s (wstart w t l k (WDo (ACtor c q)) i).
Proof.
  intros I R V H Hc Hq. pose proof (erase_thread w s t _ R H) as Hs. pose proof (w_t _ _ _ V t _ H) as Tv. pose proof (erase_cells w s c _ R Hc) as Hsc. cbn [erase_cell] in Hsc.
  assert (Al : q mod 8 = 0).
  { destruct Hq as [->|Hq]; [reflexivity|]. destruct (held_live Plain s t _ q I Hs Hq) as (ob & E & _). now destruct (live_facts Plain s q ob I E) as (_ & A & _). }
  assert (Hlt : (c < length (wcells w))%nat) by (apply nth_error_Some; congruence).
  assert (Un : forall u thu, nth_error (wths w) u = Some thu -> ~ wuses (wpc thu) c).
  { intros u thu Hu U. apply wuses_uses in U. exact (none_unused Plain s u _ c I (erase_thread w s u thu R Hu) Hsc U). }
  assert (A : allowed s (EStart t (ACtor c q))) by (exists (Thread Idle l); auto).
  cbn [WeakModel.wstart]. rewrite Al, N.eqb_refl, assert_true. cbn [bind]. destruct (N.eqb_spec q 0) as [->|Nq].
  - rewrite (put_cell_ok _ _ _ _ Hc). cbn [bind]. erewrite put_thread_ok by exact H. cbn [bind].
    set (cm := Msg (clock w) 0 (vadd k (clock w)) false).
    exists (after_cell w t c (WLive (clock w) [] [cm]) (WThread Idle l (vadd k (clock w)))), []. split; [reflexivity|]. split.
    + eapply unused_cell_winv; eauto; [apply vle_add| | |].
      * intros e us h E. injection E as <- <- <-. split.
        -- discriminate.
        -- intros [|j] m1 m2 Hj; [discriminate|destruct j; discriminate].
        -- intros m r X. injection X as <- <-. left. reflexivity.
        -- intros m r ob X Hob. injection X as <- <-. destruct (heap_nonnull w s _ ob I R Hob). reflexivity.
        -- intros _ m [<-|[]] Hn. now destruct Hn.
      * eapply tinv_plain; [exact Tv|apply vle_add| |exact Logic.I|intros ? ? ? ? []]. intros b ob Hb Sb. apply stake_idle in Sb. exists ob. split; [exact Hb|]. split; [auto|]. left. left. exact Sb.
      * intros b Hb. left. exact Hb.
    + eapply follows_one; [exact I|exact A|rewrite (sc_start s t l (ACtor c 0) Hs); cbn [start]; rewrite Al, N.eqb_refl, assert_true; cbn [bind N.eqb]; rewrite (setcell_ok _ _ _ _ Hsc); reflexivity|].
      split; cbn [hp cells threads fresh deleted after_cell wcells wths]; [|rewrite map_upd; now rewrite (r_ce w s R)|now apply (rel_heap_same w)|apply R|apply R].
      rewrite map_upd, <- (r_th w s R), upd_same; [reflexivity|exact Hs].
  - rewrite (put_cell_ok _ _ _ _ Hc). cbn [bind]. erewrite put_thread_ok by exact H. cbn [bind].
    exists (after_cell w t c WBusy (WThread (CtAdd c q) l k)), []. split; [reflexivity|]. split.
    + eapply unused_cell_winv; eauto; [apply vle_refl|discriminate| |].
      * eapply tinv_plain; [exact Tv|apply vle_refl| |exact Logic.I|].
        -- intros b ob Hb Sb. exists ob. split; [exact Hb|]. split; [auto|]. left. left. destruct Sb as [Sb|[[]|[[]|(? & ? & X & _)]]]; [exact Sb|discriminate].
        -- intros d e us h <-. unfold after_cell. cbn [wcells]. rewrite nth_error_upd_eq by auto. discriminate.
      * intros b Hb. left. exact Hb.
    + eapply follows_one; [exact I|exact A|rewrite (sc_start s t l (ACtor c q) Hs); cbn [start]; rewrite Al, N.eqb_refl, assert_true; cbn [bind]; apply N.eqb_neq in Nq; rewrite Nq; rewrite (setcell_ok _ _ _ _ Hsc); cbn [bind]; erewrite setpc_ok by exact Hs; reflexivity|].
      cbn [hp cells threads fresh deleted]. eapply (rel_upd w _ s t (WThread (CtAdd c q) l k)); [exact R|reflexivity| |now apply (rel_heap_same w)|apply R|apply R].
      unfold after_cell. cbn [wcells]. rewrite map_upd. now rewrite (r_ce w s R).
Qed.

Lemma dtor_good w s t l k c e us h i : inv Plain s -> rel w s -> winv w -> nth_error (wths w) t = Some (WThread Idle l k) ->
  nth_error (wcells w) c = Some (WLive e us h) -> k e = true -> (forall x, In x us -> k x = true) -> read_ok k h i ->
  (forall u thu, nth_error (wths w) u = Some thu -> ~ wuses (wpc thu) c) -> good w s (wstart w t l k (WDo (ADtor c)) i).
Proof.
  intros I R V H Hc Ke Ku Hr Un. pose proof (erase_thread w s t _ R H) as Hs. pose proof (w_t _ _ _ V t _ H) as Tv. pose proof (erase_cells w s c _ R Hc) as Hsc. cbn [erase_cell] in Hsc.
  pose proof (w_c _ _ _ V c e us h Hc) as C. destruct h as [|m r]; [now destruct (c_ne _ _ _ _ _ C)|].
  assert (Km : k (mid m) = true) by (destruct (c_head _ _ _ _ _ C m r eq_refl) as [<-|X]; auto). pose proof (read_latest k _ i m r eq_refl Km Hr) as ->.
  assert (Hlt : (c < length (wcells w))%nat) by (apply nth_error_Some; congruence). cbn [hv] in Hsc.
  cbn [WeakModel.wstart]. rewrite (access_cell_ok w k c e us _ Hc Ke). cbn [bind tl]. assert (forallb k us = true) as -> by (apply forallb_forall; exact Ku).
  cbn [slot_get nth_error bind]. rewrite (put_cell_ok _ _ _ _ Hc). cbn [bind]. erewrite put_thread_ok by exact H. cbn [bind].
  exists (after_cell w t c WNone (WThread (DtA (mval m)) l (acquire k (clock w) m))), []. split; [reflexivity|]. split.
  - eapply unused_cell_winv; eauto; [apply vle_acquire|discriminate| |].
    + eapply tinv_plain; [exact Tv|apply vle_acquire| |exact Logic.I|intros ? ? ? ? []].
      intros b ob Hb Sb. exists ob. split; [exact Hb|]. split; [auto|]. destruct Sb as [Sb|[[]|[[Sb _]|(? & ? & X & _)]]]; [left; left; exact Sb| |discriminate].
      right. apply acquire_view. apply (c_view _ _ _ _ _ C m r ob eq_refl). rewrite Sb. exact Hb.
    + intros b Hb. left. exact Hb.
  - eapply follows_one; [exact I| |rewrite (sc_start s t l (ADtor c) Hs); cbn [start]; rewrite (load_ok _ _ _ Hsc); cbn [bind]; rewrite (setcell_ok _ _ _ _ Hsc); cbn [bind]; erewrite setpc_ok by exact Hs; reflexivity|].
    + exists (Thread Idle l). split; [exact Hs|]. split; [reflexivity|]. split; [eauto|]. intros u th Hth U. destruct (erase_thread_inv w s u th R Hth) as (thu & Hu & ->). exact (Un u thu Hu (uses_wuses _ _ U)).
    + cbn [hp cells threads fresh deleted]. eapply (rel_upd w _ s t (WThread (DtA (mval m)) l _)); [exact R|reflexivity| |now apply (rel_heap_same w)|apply R|apply R].
      unfold after_cell. cbn [wcells]. rewrite map_upd. now rewrite (r_ce w s R).
Qed.

Lemma op_good w s t l k c o a : inv Plain s -> rel w s -> winv w -> nth_error (wths w) t = Some (WThread Idle l k) -> ops = true -> known_cell w k c ->
  allowed s (EStart t a) -> start debug s t l a = Ok (State (hp s) (cells s) (upd (threads s) t (Thread (LkLoad c o) l)) (fresh s) (deleted s), [Inv t c o]) ->
  good w s (do w <- put_thread w t (LkLoad c o) l k; Ok (w, [Inv t c o])).
Proof.
  intros I R V H Hop (e & us & h & Hc & Ke) A E. pose proof (w_t _ _ _ V t _ H) as Tv. eapply pc_step; eauto; [|intros b Hb; left; exact Hb].
  eapply tinv_new; [exact Tv|apply vle_refl| | | | | | |]; cbn [closing sec_val wuses]; try (intros; discriminate); try (intros; contradiction); auto.
  - intros b ob Hb Sb. exists ob. split; [exact Hb|]. split; [auto|]. left. left. destruct Sb as [Sb|[[]|[[]|(? & ? & X & _)]]]; [exact Sb|discriminate].
  - cbn [wcells]. intros d e1 us1 h1 <- Hd. congruence.
  - congruence.
Qed.

Theorem wstart_good w s t l k a i : inv Plain s -> rel w s -> winv w -> nth_error (wths w) t = Some (WThread Idle l k) -> wallowed w (WStart t a i) ->
  good w s (wstart w t l k a i).
Proof.
  intros I R V H (th & Hth & _ & A). rewrite H in Hth. injection Hth as <-. cbn [wheld know] in A. pose proof (erase_thread w s t _ R H) as Hs. change (nth_error (threads s) t = Some (Thread Idle l)) in Hs.
  pose proof (w_t _ _ _ V t _ H) as Tv. destruct a as [[p|p|p|p u|c|c q|c q|c]|p|u].
  - destruct A as (A1 & A2 & A3 & A4). eapply new_good; eauto.
  - cbn [WeakModel.wstart]. eapply (pc_step w s t l k (Add p) l [] (AAddRef p)); eauto.
    + eapply tinv_plain; [exact Tv|apply vle_refl| |exact Logic.I|intros ? ? ? ? []].
      intros b ob Hb Sb. exists ob. split; [exact Hb|]. split; [auto|]. left. left. destruct Sb as [Sb|[[]|[[]|(? & ? & X & _)]]]; [exact Sb|discriminate].
    + intros b Hb. left. exact Hb.
    + exists (Thread Idle l). auto.
    + cbn [start]. now rewrite (setpc_ok _ _ _ _ _ Hs).
  - cbn [WeakModel.wstart]. eapply (pc_step w s t l k (RelSub p None) (remove1 p l) [] (ARelease p)); eauto.
    + eapply tinv_plain; [exact Tv|apply vle_refl| |exact Logic.I|intros ? ? ? ? []].
      intros b ob Hb Sb. exists ob. split; [exact Hb|]. split; [auto|]. left. left. destruct Sb as [Sb|[[]|[<-|(? & ? & X & _)]]]; [exact (in_remove1 _ _ _ Sb)|exact A|discriminate].
    + intros b Hb. destruct (N.eq_dec b p) as [->|Hne]; [right; right; reflexivity|left; now apply in_remove1_ne].
    + exists (Thread Idle l). auto.
    + cbn [start]. now rewrite (setpc_ok _ _ _ _ _ Hs).
  - destruct A as [A1 A2]. now apply give_good.
  - destruct A as [A1 A2]. cbn [WeakModel.wstart]. eapply (op_good w s t l k c OGet (AGet c)); eauto.
    + destruct A2 as (e & us & h & Hc & _). exists (Thread Idle l). split; [exact Hs|]. split; [reflexivity|]. exists (hv h). exact (erase_cells w s c _ R Hc).
    + cbn [start]. now rewrite (setpc_ok _ _ _ _ _ Hs).
  - destruct A as (A1 & A2 & A3). cbn [WeakModel.wstart]. eapply (op_good w s t l k c (OSet q) (ASet c q)); eauto.
    + destruct A2 as (e & us & h & Hc & _). exists (Thread Idle l). split; [exact Hs|]. split; [reflexivity|]. split; [exists (hv h); exact (erase_cells w s c _ R Hc)|exact A3].
    + cbn [start]. now rewrite (setpc_ok _ _ _ _ _ Hs).
  - destruct A as [A1 A2]. now apply ctor_good.
  - destruct A as (e & us & h & A1 & A2 & A3 & A4 & A5). eapply dtor_good; eauto.
  - assert (St : stake Idle l p) by (left; exact A). destruct (stake_ob _ _ w s t _ p I R V H St (or_intror A)) as (ob & Hob & K & _). cbn [know] in K.
    cbn [WeakModel.wstart]. rewrite (access_ok w k p ob Hob K). cbn [bind]. rewrite (put_thread_ok _ _ (WThread Idle l k)) by exact H. cbn [bind].
    exists (after_touch w t p ob (WThread Idle l (vadd k (clock w)))), []. split; [reflexivity|]. split.
    + eapply after_touch_winv; eauto; [left; exact A|apply vadd_self|apply vle_add|].
      eapply tinv_plain; [exact Tv|apply vle_add| |exact Logic.I|intros ? ? ? ? []].
      intros b ob' Hb Sb. destruct (after_touch_ctor _ _ _ _ _ _ _ Hob Hb) as (ob0 & H0 & Ec). exists ob0. split; [auto|]. split; [auto|]. left. exact Sb.
    + apply follows_none; [exact I|]. eapply (rel_quiet w _ s t); [exact R|exact H|reflexivity|reflexivity|reflexivity|now apply after_touch_heap|reflexivity|reflexivity].
  - cbn [WeakModel.wstart]. destruct (nth_error (wths w) u) as [[pu lu ku]|] eqn:Eu; [|apply nth_error_None in Eu; lia]. rewrite (slot_get_ok _ _ _ Eu). cbn [bind wpc wheld know].
    rewrite (put_thread_ok _ _ _ _ _ _ Eu). cbn [bind]. eexists _, []. split; [reflexivity|]. split.
    + eapply (winv_thread _ _ w _ s u (WThread pu lu ku) (WThread pu lu (vjoin ku k))); eauto; try reflexivity; [|apply vle_join_l].
      eapply tinv_mono; [..|exact (w_t _ _ _ V u _ Eu)]; try reflexivity. apply vle_join_l.
    + apply follows_none; [exact I|]. eapply (rel_quiet w _ s u); [exact R|exact Eu|reflexivity|reflexivity|reflexivity|now apply (rel_heap_same w)|reflexivity|reflexivity].
Qed.
Theorem wstep_good w s x : inv Plain s -> rel w s -> winv w -> wallowed w x -> good w s (wstep w x).
Proof.
  intros I R V A. destruct x as [t a i|t i]; cbn [WeakModel.wstep].
  - pose proof A as ([p l k] & H & Hp & _). cbn in Hp. subst p. rewrite (slot_get_ok _ _ _ H). cbn [bind wheld know]. now apply wstart_good.
  - destruct A as ([p l k] & H & Hp & C). rewrite (slot_get_ok _ _ _ H). cbn [bind wpc wheld know] in *. now apply wcont_good.
Qed.

Lemma legal_app es1 es2 : forall s s' o, legal s es1 -> run s es1 = Ok (s', o) -> legal s' es2 -> legal s (es1 ++ es2).
Proof.
  induction es1 as [|e es1 IH]; intros s s' o L E L2; cbn [AtomicRefModel.run app] in *; [injection E as <- <-; exact L2|].
  inversion L as [|? ? ? A N]; subst. constructor; [exact A|]. intros s1 o1 E1. rewrite E1 in E. cbn [bind] in E.
  destruct (run s1 es1) as [[s2 o2]| |] eqn:E2; cbn [bind] in E; try discriminate. injection E as <- <-. eapply IH; eauto.
Qed.
Lemma run_app es1 es2 : forall s s' o s2 o2, run s es1 = Ok (s', o) -> run s' es2 = Ok (s2, o2) -> run s (es1 ++ es2) = Ok (s2, o ++ o2).
Proof.
  induction es1 as [|e es1 IH]; intros s s' o s2 o2 E E2; cbn [AtomicRefModel.run app] in *; [injection E as <- <-; exact E2|].
  destruct (step s e) as [[s1 o1]| |]; cbn [bind] in E |- *; try discriminate. destruct (run s1 es1) as [[s3 o3]| |] eqn:E3; cbn [bind] in E; try discriminate. injection E as <- <-.
  rewrite (IH _ _ _ _ _ E3 E2). cbn [bind]. now rewrite app_assoc.
Qed.
(** Only a destructor ends the life of an AtomicRef. *)
Lemma put_thread_cells w t p l k w' : put_thread w t p l k = Ok w' -> wcells w' = wcells w.
Proof. unfold put_thread. destruct (slot_set (wths w) t _) as [ts| |]; cbn [bind]; try discriminate. intros E. injection E as <-. reflexivity. Qed.
Lemma put_cell_cells w c x w' : put_cell w c x = Ok w' -> wcells w' = upd (wcells w) c x.
Proof.
  unfold put_cell, slot_set. destruct (c <? length (wcells w))%nat; cbn [bind]; try discriminate. intros E. injection E as <-. reflexivity.
Qed.
Lemma rmw_cells w k a i f w' k' v : rmw_count w k a i f = Ok (w', k', v) -> wcells w' = wcells w.
Proof.
  unfold rmw_count. destruct (access w k a) as [ob| |]; cbn [bind]; try discriminate. destruct (slot_get _ i) as [m| |]; cbn [bind]; try discriminate.
  intros E. injection E as <- _ _. reflexivity.
Qed.
Lemma upd_keep (l : list wcell) d c x : x <> WNone -> nth_error l c <> Some WNone -> nth_error (upd l d x) c <> Some WNone.
Proof.
  intros X H. destruct (Nat.eq_dec d c) as [->|Hne]; [|rewrite nth_error_upd_ne by auto; exact H].
  destruct (Nat.lt_ge_cases c (length l)) as [Lc|Lc]; [rewrite nth_error_upd_eq by auto; congruence|].
  replace (nth_error (upd l c x) c) with (@None wcell); [discriminate|]. symmetry. apply nth_error_None. now rewrite upd_length.
Qed.
Lemma wstep_keeps w x w' o c : wstep w x = Ok (w', o) -> (forall t i, x <> WStart t (WDo (ADtor c)) i) ->
  nth_error (wcells w) c <> Some WNone -> nth_error (wcells w') c <> Some WNone.
Proof.
  assert (Pt : forall (w0 : wstate) t p l k w1, put_thread w0 t p l k = Ok w1 -> nth_error (wcells w0) c <> Some WNone -> nth_error (wcells w1) c <> Some WNone).
  { intros. erewrite put_thread_cells; eauto. }
  assert (Pc : forall (w0 : wstate) d y w1, put_cell w0 d y = Ok w1 -> (d = c -> y <> WNone) -> nth_error (wcells w0) c <> Some WNone -> nth_error (wcells w1) c <> Some WNone).
  { intros w0 d y w1 E Hy H. erewrite put_cell_cells by eauto. destruct (Nat.eq_dec d c) as [->|Hne]; [apply upd_keep; auto|now rewrite nth_error_upd_ne by auto]. }
  assert (Pr : forall (w0 : wstate) k a i f w1 k' v, rmw_count w0 k a i f = Ok (w1, k', v) -> nth_error (wcells w0) c <> Some WNone -> nth_error (wcells w1) c <> Some WNone).
  { intros. erewrite rmw_cells; eauto. }
  intros E Hx Hc. destruct x as [t a i|t i]; cbn [WeakModel.wstep] in E; destruct (slot_get (wths w) t) as [th| |]; cbn [bind] in E; try discriminate.
  - destruct a as [a|a|u]; [destruct a|..]; cbn [WeakModel.wstart] in E; cbv zeta in E;
    repeat match type of E with
    | bind ?y _ = Ok _ => let Q := fresh "Q" in destruct y as [?z| |] eqn:Q; cbn [bind] in E; try discriminate
    | (let (_, _) := ?y in _) = Ok _ => destruct y
    | (if ?b then _ else _) = Ok _ => destruct b; try discriminate
    end;
    try discriminate E; injection E as <- _;
    repeat match goal with
    | Q : put_thread _ _ _ _ _ = Ok ?w1 |- nth_error (wcells ?w1) _ <> _ => eapply (Pt _ _ _ _ _ _ Q); clear Q; cbn [wcells put_obj]
    | Q : put_cell _ _ _ = Ok ?w1 |- nth_error (wcells ?w1) _ <> _ => eapply (Pc _ _ _ _ Q); clear Q; cbn [wcells put_obj]; [|]
    end; try exact Hc; try (intros _; discriminate).
    intros ->. exfalso. now eapply Hx.
  - destruct (wpc th); cbn [WeakModel.wcont] in E; cbv zeta in E;
    repeat match type of E with
    | bind ?y _ = Ok _ => let Q := fresh "Q" in destruct y as [?z| |] eqn:Q; cbn [bind] in E; try discriminate
    | (let (_, _) := ?y in _) = Ok _ => destruct y
    | (if ?b then _ else _) = Ok _ => destruct b; try discriminate
    | match ?y with _ => _ end = Ok _ => destruct y; try discriminate
    end;
    try discriminate E; injection E as <- _;
    repeat match goal with
    | Q : put_thread _ _ _ _ _ = Ok ?w1 |- nth_error (wcells ?w1) _ <> _ => eapply (Pt _ _ _ _ _ _ Q); clear Q; cbn [wcells put_obj]
    | Q : put_cell _ _ _ = Ok ?w1 |- nth_error (wcells ?w1) _ <> _ => eapply (Pc _ _ _ _ Q); clear Q; cbn [wcells put_obj]; [|]
    | Q : rmw_count _ _ _ _ _ = Ok (?w1, _, _) |- nth_error (wcells ?w1) _ <> _ => eapply (Pr _ _ _ _ _ _ _ _ Q); clear Q; cbn [wcells put_obj]
    end; try exact Hc; try (intros _; discriminate).
Qed.
(** A run corresponds to a run of the sequentially consistent machine, which destroys no AtomicRef that this one does not. *)
Definition followed (s : state) (xs : list wevent) (w' : wstate) (o : list obs) : Prop :=
  exists es s', legal s es /\ run s es = Ok (s', o) /\ rel w' s' /\ inv Plain s' /\
    (forall c, (exists t, In (EStart t (ADtor c)) es) -> exists t i, In (WStart t (WDo (ADtor c)) i) xs).
Lemma dtor_dec c x : (exists t i, x = WStart t (WDo (ADtor c)) i) \/ (forall t i, x <> WStart t (WDo (ADtor c)) i).
Proof.
  destruct x as [t [a| |] i|]; try (right; discriminate). destruct a; try (right; discriminate).
  destruct (Nat.eq_dec c0 c) as [->|]; [left; eauto|right; congruence].
Qed.
Theorem wrun_good : forall xs w s, inv Plain s -> rel w s -> winv w -> wlegal w xs -> exists w' o, wrun w xs = Ok (w', o) /\ winv w' /\ followed s xs w' o.
Proof.
  induction xs as [|x xs IH]; intros w s I R V L; cbn [WeakModel.wrun].
  - exists w, []. split; [reflexivity|]. split; [exact V|]. exists [], s. split; [constructor|]. split; [reflexivity|]. split; [exact R|]. split; [exact I|]. intros c (t & []).
  - inversion L as [|? ? ? A N]; subst. destruct (wstep_good w s x I R V A) as (w1 & o1 & E1 & V1 & es1 & s1 & L1 & R1 & Re1 & I1 & D1).
    destruct (IH w1 s1 I1 Re1 V1 (N _ _ E1)) as (w2 & o2 & E2 & V2 & es2 & s2 & L2 & R2 & Re2 & I2 & D2).
    exists w2, (o1 ++ o2). rewrite E1. cbn [bind]. rewrite E2. cbn [bind]. split; [reflexivity|]. split; [exact V2|].
    exists (es1 ++ es2), s2. split; [eapply legal_app; eauto|]. split; [eapply run_app; eauto|]. split; [exact Re2|]. split; [exact I2|].
    intros c (t & Hin). apply in_app_or in Hin as [Hin|Hin]; [|destruct (D2 c (ex_intro _ t Hin)) as (u & i & X); exists u, i; now right].
    destruct (dtor_dec c x) as [(u & i & ->)|Hx]; [exists u, i; now left|]. exfalso.
    destruct (D1 t c Hin) as [X (y & Y)]. revert X. eapply wstep_keeps; [exact E1|exact Hx|].
    destruct (erase_cells_inv w s c _ R Y) as (z & Z & Ez). rewrite Z. destruct z; discriminate.
Qed.
Lemma winv0 n m : winv (winit n m).
Proof.
  split.
  - intros t th H. apply nth_error_In, repeat_spec in H. subst. split; cbn; try (intros; discriminate); try (intros; contradiction); auto.
  - intros a ob H. discriminate.
  - intros c e us h H. apply nth_error_In, repeat_spec in H. discriminate.
Qed.
Lemma rel0 n m : rel (winit n m) (init n m).
Proof.
  assert (M : forall {A B} (f : A -> B) x k, map f (repeat x k) = repeat (f x) k) by (intros A B f x k; induction k; cbn; congruence).
  split; cbn; auto; now rewrite M.
Qed.
End Step.
