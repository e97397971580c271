(** What a step leaves alone. *)
From Verif Require Import Base AtomicRefModel AtomicRefSpec AtomicRefProofs AtomicRefStep WeakModel WeakSpec WeakInv.
Local Open Scope N_scope.

Lemma wuses_uses p c : wuses p c -> uses (erase p) c.
Proof. destruct p; cbn; auto. Qed.
Lemma sec_uses p c v : sec_val p = Some (c, v) -> wuses p c.
Proof. destruct p; cbn; intros H; try discriminate; now injection H. Qed.
Lemma sec_excl p c v : sec_val p = Some (c, v) -> excl c (erase p) = 1%nat.
Proof. destruct p; cbn; intros H; try discriminate; injection H as -> ->; now rewrite Nat.eqb_refl. Qed.
Lemma closing_stake p l a : closing p a -> stake p l a.
Proof. intros H. right. left. exact H. Qed.
Lemma vouch_stake p l a : vouch p l a -> stake p l a.
Proof. intros [H|[H|H]]; [left; auto|right; left; auto|]. right. right. left. destruct p; auto; contradiction. Qed.

Section Frame.
Variables reuse ops : bool.
Notation tinv := (tinv reuse ops). Notation cinv := (cinv reuse). Notation winv := (winv reuse ops).

(** Objects change only by thread [th], which deals with them, or are created. *)
Definition hcond (w w' : wstate) (th : wthread) : Prop := forall a ob', wheap w' a = Some ob' ->
  (wheap w a = None /\ a <> 0) \/
  exists ob, wheap w a = Some ob /\ wser ob' = wser ob /\ ctor ob' = ctor ob /\
    ((ob' = ob /\ counts w' (wser ob) = counts w (wser ob)) \/ stake (wpc th) (wheld th) a).
Definition ucond (w w' : wstate) : Prop := reuse = false -> forall a x, used w a = Some x -> used w' a = Some x.
(** Cells in use by [thu] stay constructed, and keep their latest message while it holds the lock. *)
Definition ccond (w w' : wstate) (thu : wthread) : Prop := forall c, wuses (wpc thu) c ->
  (forall e us h, nth_error (wcells w') c = Some (WLive e us h) -> exists us0 h0, nth_error (wcells w) c = Some (WLive e us0 h0)) /\
  (forall v e us m h, sec_val (wpc thu) = Some (c, v) -> nth_error (wcells w) c = Some (WLive e us (m :: h)) ->
    exists e' us' h', nth_error (wcells w') c = Some (WLive e' us' (m :: h'))).

Lemma hcond_same w w' th : (forall a, wheap w' a = wheap w a) -> (forall n, counts w' n = counts w n) -> hcond w w' th.
Proof. intros E F a ob' H. right. rewrite E in H. exists ob'. repeat split; auto. Qed.
Lemma ccond_same w w' thu : wcells w' = wcells w -> ccond w w' thu.
Proof. intros E c U. rewrite E. split; eauto. Qed.

Lemma tinv_other w w' s t th u thu : inv Plain s -> rel w s -> winv w -> nth_error (wths w) t = Some th -> nth_error (wths w) u = Some thu -> u <> t ->
  hcond w w' th -> ucond w w' -> ccond w w' thu -> tinv w' thu.
Proof.
  intros I R V Ht Hu Hne HC UC CC. pose proof (w_t _ _ _ V u thu Hu) as T. split.
  - intros a ob' Hs Ha. destruct (HC a ob' Ha) as [[Hn N0]|(ob & Ho & _ & Ec & _)].
    + exfalso. exact (stake_live w s u thu a I R Hu Hs N0 Hn).
    + rewrite Ec. exact (t_stake _ _ _ _ T a ob Hs Ho).
  - intros a ob' Hc Ha. destruct (HC a ob' Ha) as [[Hn N0]|(ob & Ho & _ & _ & [[-> _]|Hst])].
    + exfalso. exact (stake_live w s u thu a I R Hu (closing_stake _ _ _ Hc) N0 Hn).
    + exact (t_close _ _ _ _ T a ob Hc Ho).
    + exfalso. apply Hne. exact (proj1 (closing_alone w s u thu a t th I R Hu Hc Ht Hst (heap_nonnull w s a ob I R Ho))).
  - intros a k ob' Hp Ha. assert (Hc : closing (wpc thu) a) by (rewrite Hp; reflexivity).
    destruct (HC a ob' Ha) as [[Hn N0]|(ob & Ho & Es & _ & [[-> En]|Hst])].
    + exfalso. exact (stake_live w s u thu a I R Hu (closing_stake _ _ _ Hc) N0 Hn).
    + rewrite En. exact (t_last _ _ _ _ T a k ob Hp Ho).
    + exfalso. apply Hne. exact (proj1 (closing_alone w s u thu a t th I R Hu Hc Ht Hst (heap_nonnull w s a ob I R Ho))).
  - intros c v Hs. destruct (t_sec _ _ _ _ T c v Hs) as (e & us & m & h & Hc & K).
    destruct (CC c (sec_uses _ _ _ Hs)) as [_ C2]. destruct (C2 v e us m h Hs Hc) as (e' & us' & h' & Hc'). eauto 8.
  - intros c e us h Hs Hc. destruct (CC c Hs) as [C1 _]. destruct (C1 e us h Hc) as (us0 & h0 & Hc0). exact (t_uses _ _ _ _ T c e us0 h0 Hs Hc0).
  - intros c o old Hp. destruct (t_old _ _ _ _ T c o old Hp) as [Ev Hx]. split; [exact Ev|]. intros Hr Hn.
    destruct (Hx Hr Hn) as (x & Hux & K). exists x. split; [exact (UC Hr _ _ Hux)|exact K].
  - exact (t_ops _ _ _ _ T).
Qed.

Lemma oinv_keep w w' a ob t th th' : oinv w a ob -> nth_error (wths w) t = Some th -> wths w' = upd (wths w) t th' -> vle (know th) (know th') ->
  counts w' (wser ob) = counts w (wser ob) -> used w' a = used w a -> (vouch (wpc th) (wheld th) a -> vouch (wpc th') (wheld th') a) -> oinv w' a ob.
Proof.
  intros O Ht Eth Hk En Eu Hv. split.
  - rewrite En. apply O.
  - rewrite En. apply O.
  - rewrite Eu. apply O.
  - intros x Hx. rewrite En. destruct (o_accs _ _ _ O x Hx) as [L|(u & thu & Hu & K & Vo)]; [auto|right].
    assert (Hlt : (t < length (wths w))%nat) by (apply nth_error_Some; congruence). rewrite Eth.
    destruct (Nat.eq_dec t u) as [<-|Hne].
    + exists t, th'. rewrite nth_error_upd_eq by auto. rewrite Ht in Hu. injection Hu as <-. auto.
    + exists u, thu. rewrite nth_error_upd_ne by auto. auto.
Qed.
Lemma cinv_keep w w' s th c e us us' h : inv Plain s -> rel w s -> nth_error (wcells w) c = Some (WLive e us h) -> cinv w e us h -> incl us us' ->
  hcond w w' th -> ucond w w' -> cinv w' e us' h.
Proof.
  intros I R Hc C Hi HC UC. split.
  - apply C.
  - apply C.
  - intros m r E. pose proof (c_head _ _ _ _ _ C m r E) as [X|X]; [left; auto|right; auto].
  - intros m r ob' E Ha. destruct (HC _ ob' Ha) as [[Hn N0]|(ob & Ho & _ & Ec & _)].
    + exfalso. pose proof (erase_cells w s c _ R Hc) as X. cbn [erase_cell hv] in X. rewrite E in X. cbn [hv] in X.
      destruct (cell_word Plain s c _ I X) as [Z|(ob & Z & _)]; [contradiction|]. apply (heap_none w s _ R) in Hn. congruence.
    + rewrite Ec. exact (c_view _ _ _ _ _ C m r ob E Ho).
  - intros Hr m Hm Hn. destruct (c_all _ _ _ _ _ C Hr m Hm Hn) as (x & Hx & K). exists x. split; [exact (UC Hr _ _ Hx)|exact K].
Qed.

Lemma winv_gen w w' s t th th' : inv Plain s -> rel w s -> winv w -> nth_error (wths w) t = Some th -> wths w' = upd (wths w) t th' ->
  hcond w w' th -> ucond w w' -> (forall u thu, u <> t -> nth_error (wths w) u = Some thu -> ccond w w' thu) ->
  tinv w' th' -> vle (know th) (know th') ->
  (forall a ob', wheap w' a = Some ob' -> oinv w' a ob' \/
     (wheap w a = Some ob' /\ counts w' (wser ob') = counts w (wser ob') /\ used w' a = used w a /\ (vouch (wpc th) (wheld th) a -> vouch (wpc th') (wheld th') a))) ->
  (forall c e us h, nth_error (wcells w') c = Some (WLive e us h) -> cinv w' e us h \/ exists us0, nth_error (wcells w) c = Some (WLive e us0 h) /\ incl us0 us) ->
  winv w'.
Proof.
  intros I R V Ht Eth HC UC CC T Hk HO HCe. assert (Hlt : (t < length (wths w))%nat) by (apply nth_error_Some; congruence). split.
  - intros u thu Hu. rewrite Eth in Hu. destruct (Nat.eq_dec t u) as [<-|Hne].
    + rewrite nth_error_upd_eq in Hu by auto. now injection Hu as <-.
    + rewrite nth_error_upd_ne in Hu by auto. apply not_eq_sym in Hne. exact (tinv_other w w' s t th u thu I R V Ht Hu Hne HC UC (CC u thu Hne Hu)).
  - intros a ob' Ha. destruct (HO a ob' Ha) as [O|(Ho & En & Eu & Hv)]; [exact O|]. eapply oinv_keep; eauto. exact (w_o _ _ _ V a ob' Ho).
  - intros c e us h Hc. destruct (HCe c e us h Hc) as [C|(us0 & Hc0 & Hi)]; [exact C|].
    eapply cinv_keep; eauto. exact (w_c _ _ _ V c e us0 h Hc0).
Qed.

(** Only thread [t] moves. *)
Lemma winv_thread w w' s t th th' : inv Plain s -> rel w s -> winv w -> nth_error (wths w) t = Some th -> wths w' = upd (wths w) t th' ->
  wheap w' = wheap w -> counts w' = counts w -> wcells w' = wcells w -> used w' = used w ->
  tinv w' th' -> vle (know th) (know th') -> (forall a, vouch (wpc th) (wheld th) a -> vouch (wpc th') (wheld th') a) -> winv w'.
Proof.
  intros I R V Ht Eth E1 E2 E3 E4 T Hk Hv. eapply winv_gen; eauto.
  - apply hcond_same; congruence.
  - intros _ a x. now rewrite E4.
  - intros. now apply ccond_same.
  - intros a ob' Ha. right. rewrite E1 in Ha. rewrite E2, E4. auto.
  - intros c e us h Hc. right. rewrite E3 in Hc. exists us. split; [auto|apply incl_refl].
Qed.
(** Thread [t] moves and uses the object at [a]. *)
Lemma winv_obj w w' s t th th' a ob ob' : inv Plain s -> rel w s -> winv w -> nth_error (wths w) t = Some th -> wths w' = upd (wths w) t th' ->
  wheap w a = Some ob -> wheap w' = wset (wheap w) a (Some ob') -> wser ob' = wser ob -> ctor ob' = ctor ob ->
  (forall n, n <> wser ob -> counts w' n = counts w n) -> wcells w' = wcells w -> used w' = used w ->
  stake (wpc th) (wheld th) a -> oinv w' a ob' ->
  tinv w' th' -> vle (know th) (know th') -> (forall b, b <> a -> vouch (wpc th) (wheld th) b -> vouch (wpc th') (wheld th') b) -> winv w'.
Proof.
  intros I R V Ht Eth Ha E1 Es Ec E2 E3 E4 Hst O T Hk Hv.
  assert (Hd : forall b x, a <> b -> wheap w b = Some x -> wser x <> wser ob) by (intros b x Hb Hx E; apply Hb; symmetry; eapply ser_distinct; eauto).
  eapply winv_gen; eauto.
  - intros b x. rewrite E1. unfold wset. destruct (N.eqb_spec a b) as [<-|Hne].
    + intros E. injection E as <-. right. exists ob. auto.
    + intros Hx. right. exists x. split; [auto|]. split; [auto|]. split; [auto|]. left. split; [auto|]. apply E2. eauto.
  - intros _ b x. now rewrite E4.
  - intros. now apply ccond_same.
  - intros b x. rewrite E1. unfold wset. destruct (N.eqb_spec a b) as [<-|Hne].
    + intros E. injection E as <-. auto.
    + intros Hx. right. rewrite E4. repeat split; auto. apply E2. eauto.
  - intros c e us h Hc. right. rewrite E3 in Hc. exists us. split; [auto|apply incl_refl].
Qed.
(** Thread [t] moves and uses cell [c] ([us'] instead of [us], [h'] instead of [h]). *)
Lemma winv_cell w w' s t th th' c e us h us' h' : inv Plain s -> rel w s -> winv w -> nth_error (wths w) t = Some th -> wths w' = upd (wths w) t th' ->
  nth_error (wcells w) c = Some (WLive e us h) -> wcells w' = upd (wcells w) c (WLive e us' h') -> incl us us' ->
  wheap w' = wheap w -> counts w' = counts w -> used w' = used w ->
  (h' = h \/ (cinv w' e us' h' /\ forall u thu v, u <> t -> nth_error (wths w) u = Some thu -> sec_val (wpc thu) <> Some (c, v))) ->
  tinv w' th' -> vle (know th) (know th') -> (forall a, vouch (wpc th) (wheld th) a -> vouch (wpc th') (wheld th') a) -> winv w'.
Proof.
  intros I R V Ht Eth Hc E3 Hi E1 E2 E4 Hh T Hk Hv. assert (Hlt : (c < length (wcells w))%nat) by (apply nth_error_Some; congruence).
  eapply winv_gen; eauto.
  - apply hcond_same; congruence.
  - intros _ a x. now rewrite E4.
  - intros u thu Hu Hthu d U. rewrite E3. destruct (Nat.eq_dec c d) as [<-|Hne].
    + rewrite nth_error_upd_eq by auto. split.
      * intros e1 us1 h1 E. injection E as -> -> ->. eauto.
      * intros v e1 us1 m h1 Hs Hc1. destruct Hh as [->|[_ Hh]]; [|exfalso; exact (Hh u thu v Hu Hthu Hs)].
        rewrite Hc in Hc1. injection Hc1 as -> -> ->. eauto.
    + rewrite nth_error_upd_ne by auto. split; eauto.
  - intros a ob' Ha. right. rewrite E1 in Ha. rewrite E2, E4. auto.
  - intros d e1 us1 h1. rewrite E3. destruct (Nat.eq_dec c d) as [<-|Hne].
    + rewrite nth_error_upd_eq by auto. intros E. injection E as <- <- <-. destruct Hh as [->|[Hh _]]; [|auto]. right. eauto.
    + rewrite nth_error_upd_ne by auto. intros Hd. right. exists us1. split; [auto|apply incl_refl].
Qed.
End Frame.
