(** Every legal step keeps the books balanced. *)
From Verif Require Import Base BitsProofs RefcountModel RefcountSpec RefcountProofs RefcountState.

Section S.
Variable debug : bool.

Lemma alive_halive s o : alive s o <-> halive (hp s) o.
Proof. reflexivity. Qed.

(** Goals about [written] over one or two writes. *)
Ltac locs := repeat match goal with
  | |- context [loc_eqb ?a ?a] => rewrite (loc_eqb_refl a)
  | H : ?a <> ?b |- context [loc_eqb ?a ?b] => rewrite (loc_eqb_ne a b H)
  end.

(** A state that differs from [s] by a new variable that takes an additional reference. *)
Lemma ctor_addref s v (mk : option nat -> var) p : (forall q, ptr_of (mk q) = q) ->
  sinv s None -> unused s v -> (forall n, p = Some n -> halive (hp s) n) ->
  exists s', (do s1 <- new_var s v (mk p); lift s1 (AddRef (hp s1) p)) = Ok s' /\ sinv s' None /\
    (forall l, content s' l = if loc_eqb (LVar v) l then Some p else content s l).
Proof.
  intros Hmk H Hu Hp. rewrite new_var_ok by auto. cbn [bind].
  destruct (addref_ok (hp s) (hp s) (var_refs s) (var_refs (setv s v (Some (mk p)))) [] None p H (same_refl _)) as (h' & E & I & L & F).
  { intros o. pose proof (setv_refs s v (Some (mk p)) None o Hu) as X. cbn [vcontrib] in X. rewrite Hmk in X. lia. }
  { exact Hp. } { auto. }
  unfold lift. cbn [setv hp] in *. rewrite E. cbn [bind]. eexists. split; [reflexivity|]. split; [exact I|].
  intros l. cbn [vars]. rewrite (flds_content _ _ _ L F l).
  pose proof (setv_content s v (Some (mk p)) None l Hu) as X. unfold setv in X. cbn [option_map] in X. rewrite Hmk in X. exact X.
Qed.

(** Writing a counted copy of [q] into the place [l] whose old reference has been released. *)
Lemma assign_addref s1 l q nb : sinv (put s1 l None) nb -> is_refptr s1 l ->
  (forall n, q = Some n -> halive (hp s1) n) -> (nb = q \/ nb = None) ->
  exists s', (do s2 <- write s1 l q; do q' <- read s2 l; lift s2 (AddRef (hp s2) q')) = Ok s' /\ sinv s' None /\
    (forall m, content s' m = if loc_eqb l m then Some q else content s1 m) /\
    (forall y, halive (hp s') y -> halive (hp s1) y).
Proof.
  intros H Hr Hq Hnb. destruct (refptr_content _ _ Hr) as [p Hc].
  assert (Hne : content s1 l <> None) by congruence.
  rewrite write_ok by auto. cbn [bind]. rewrite (read_ok _ _ q (put_refptr _ _ _ _ Hr) (put_content_eq _ _ _ Hne)). cbn [bind].
  assert (S1 : same_heap (hp (put s1 l None)) (hp (put s1 l q))).
  { eapply same_trans; [apply same_sym, put_same|apply put_same]. }
  destruct (addref_ok (hp (put s1 l None)) (hp (put s1 l q)) (var_refs (put s1 l None)) (var_refs (put s1 l q)) [] nb q H S1) as (h' & E & I & L & F).
  { intros o. pose proof (put_handles s1 l p None o Hc) as X. pose proof (put_handles s1 l p q o Hc) as Y.
    unfold handles in X, Y. cbn [is_ref] in X. lia. }
  { intros n ->. apply (same_alive _ _ n (put_same s1 l None)). auto. } { exact Hnb. }
  unfold lift. rewrite E. cbn [bind]. eexists. split; [reflexivity|]. split; [exact I|]. split.
  - intros m. rewrite (flds_content _ _ _ L F m).
    change (content (State (hp (put s1 l q)) (vars (put s1 l q))) m) with (content (State (hp (put s1 l q)) (vars (put s1 l q))) m).
    replace (State (hp (put s1 l q)) (vars (put s1 l q))) with (put s1 l q) by (destruct (put s1 l q); reflexivity).
    destruct (loc_eqb_spec l m) as [<-|Hlm]; [now apply put_content_eq|now apply put_content_ne].
  - intros y Hy. cbn [hp] in Hy. apply (flds_alive _ _ _ F) in Hy. now apply (same_alive _ _ _ (put_same s1 l q)) in Hy.
Qed.

(** Releasing the reference held at [l]. *)
Lemma release_at s l nb : sinv s nb -> secure s l l ->
  exists p s1, read s l = Ok p /\ content s l = Some p /\ lift s (Release debug (hp s) p) = Ok s1 /\ vars s1 = vars s /\
    content s1 l = Some p /\ is_refptr s1 l /\ sinv (put s1 l None) nb /\
    (forall y, reach s l y -> halive (hp s1) y) /\ (forall y, halive (hp s1) y -> halive (hp s) y) /\
    (forall m, match m with LVar _ => True | LFld y _ => halive (hp s1) y end -> content s1 m = content s m) /\
    (forall n b, nth_error (objs (hp s)) n = Some b -> st b = Alive -> rc b = 0 -> nth_error (objs (hp s1)) n = Some b).
Proof.
  intros H [Hr Hsec]. destruct (refptr_content _ _ Hr) as [p Hc].
  destruct (release_loc debug s l p nb H Hsec Hc) as (h' & E & C & I & M & R).
  exists p, (State h' (vars s)). split; [now apply read_ok|]. split; [exact Hc|]. split; [unfold lift; now rewrite E|].
  split; [reflexivity|]. split; [exact C|]. split; [apply heap_refptr; [destruct l; [auto|congruence]|exact Hr]|].
  split; [exact I|]. split; [exact R|]. split; [|split].
  - intros y (b & Hb & Ab). destruct M as (_ & _ & F). destruct (F _ _ Hb Ab) as (b0 & H0 & A0 & _). exists b0. auto.
  - intros m Hm. destruct m as [v|y j]; [reflexivity|]. rewrite (mono_content (hp s)) by auto. destruct s; reflexivity.
  - intros n b Hn An Rn. destruct p as [o|]; cbn [Release] in E; [|injection E as <-; exact Hn].
    eapply newborn_kept; eauto.
Qed.

Lemma secure_alive s x l : secure s x l -> (forall y, reach s x y -> halive (hp s) y) -> match l with LVar _ => True | LFld y _ => halive (hp s) y end.
Proof. intros [_ H] R. destruct l; auto. Qed.

Lemma reach_ext s s' x : (forall l, content s l <> None -> content s' l = content s l) -> forall y, reach s x y -> reach s' x y.
Proof.
  intros Hc y Hr. induction Hr as [v o Hne C|y j o Hr IH Hne C].
  - apply (reach_var s' x v o Hne). rewrite Hc; [exact C|congruence].
  - apply (reach_fld s' x y j o IH Hne). rewrite Hc; [exact C|congruence].
Qed.
Lemma content_created s l : content s l <> None -> match l with LVar _ => True | LFld y _ => created s y end.
Proof.
  destruct l as [v|y j]; cbn; [auto|]. unfold created. destruct (nth_error (objs (hp s)) y) eqn:E; [|congruence].
  intros _. apply nth_error_Some. congruence.
Qed.

(** Moving references between variables does not change the totals. *)
Lemma moved s s' : sinv s None -> same_heap (hp s) (hp s') -> (forall o, handles s' o = handles s o) -> sinv s' None.
Proof. intros H S E. eapply sinv_same; eauto. Qed.

Lemma upd_upd_ne {A} (l : list A) i j x : i <> j -> nth_error (upd l i x) j = nth_error l j.
Proof. apply nth_error_upd_ne. Qed.

Theorem step_ok s o : sinv s None -> pre s o -> exists s', step debug s o = Ok s' /\ sinv s' None /\ effect s o s'.
Proof.
  intros H Hp.
  assert (Hsrc : forall l, is_refptr s l -> exists p, content s l = Some p /\ read s l = Ok p /\ (forall n, p = Some n -> halive (hp s) n)).
  { intros l Hr. destruct (refptr_content _ _ Hr) as [p Hc]. exists p. split; [exact Hc|]. split; [now apply read_ok|].
    intros n ->. eapply content_alive; eauto. }
  destruct o as [v|v k|v l|v l|v l|v w|l|l k|l m|l m|l m|l w|v l|v|v w|v w|v w|v w|v]; cbn [step pre writes] in *.
  - (* CtorNull *)
    rewrite new_var_ok by auto. eexists. split; [reflexivity|]. split.
    + apply (moved s); [auto|apply same_refl|]. intros o. pose proof (setv_handles s v (Some (VRef None)) None o Hp). cbn in *. lia.
    + intros l _. rewrite (setv_content _ _ _ _ _ Hp). cbn [writes written]. destruct (loc_eqb (LVar v) l); reflexivity.
  - (* CtorNew *)
    destruct (alloc_ok s k H) as (H1 & Hn & Hc). cbv zeta in *. destruct (alloc s k) as [s1 n] eqn:Ea. cbn [fst] in *.
    assert (n = length (objs (hp s))) as -> by (unfold alloc in Ea; congruence).
    assert (Hu : unused s1 v) by (unfold alloc in Ea; injection Ea as <-; exact Hp).
    rewrite new_var_ok by auto. cbn [bind].
    destruct (addref_ok (hp s1) (hp s1) (var_refs s1) (var_refs (setv s1 v (Some (VRef (Some (length (objs (hp s)))))))) [] _ (Some (length (objs (hp s)))) H1 (same_refl _)) as (h' & E & I & L & F).
    { intros o. pose proof (setv_refs s1 v (Some (VRef (Some (length (objs (hp s)))))) None o Hu) as X. cbn [vcontrib ptr_of] in X. lia. }
    { intros n X. injection X as <-. eexists. split; [exact Hn|reflexivity]. } { auto. }
    unfold lift. cbn [setv hp] in *. rewrite E. cbn [bind]. eexists. split; [reflexivity|]. split; [exact I|].
    intros l Hl. cbn [vars]. rewrite (flds_content _ _ _ L F l).
    pose proof (setv_content s1 v (Some (VRef (Some (length (objs (hp s)))))) None l Hu) as X. unfold setv in X. cbn [option_map ptr_of] in X. cbn [setv vars]. rewrite X.
    cbn [writes written]. destruct (loc_eqb (LVar v) l); [reflexivity|].
    apply Hc. destruct l; tauto.
  - (* CtorRaw *)
    destruct Hp as [Hu Hr]. destruct (Hsrc l Hr) as (p & Hc & -> & Ha). cbn [bind].
    destruct (ctor_addref s v VRef p ltac:(reflexivity) H Hu Ha) as (s' & E & I & C). rewrite E. eexists. split; [reflexivity|]. split; [exact I|].
    intros m _. rewrite C. cbn [writes written]. rewrite Hc. destruct (loc_eqb (LVar v) m); reflexivity.
  - (* CtorCopy *)
    destruct Hp as [Hu Hr]. destruct (Hsrc l Hr) as (p & Hc & -> & Ha). cbn [bind].
    destruct (ctor_addref s v VRef p ltac:(reflexivity) H Hu Ha) as (s' & E & I & C). rewrite E. eexists. split; [reflexivity|]. split; [exact I|].
    intros m _. rewrite C. cbn [writes written]. rewrite Hc. destruct (loc_eqb (LVar v) m); reflexivity.
  - (* CtorMove *)
    destruct Hp as [Hu Hr]. destruct (Hsrc l Hr) as (p & Hc & -> & Ha). cbn [bind].
    rewrite new_var_ok by auto. cbn [bind]. pose proof (refptr_ne_unused _ _ _ Hu Hr) as Hne.
    pose proof (setv_refptr s v (Some (VRef p)) l Hne Hr) as Hr1. rewrite write_ok by auto.
    assert (Hc1 : content (setv s v (Some (VRef p))) l = Some p) by (rewrite (setv_content _ _ _ _ _ Hu), loc_eqb_ne by congruence; exact Hc).
    eexists. split; [reflexivity|]. split.
    + apply (moved s); [auto|exact (put_same (setv s v (Some (VRef p))) l None)|]. intros o.
      pose proof (put_handles _ l p None o Hc1). pose proof (setv_handles s v (Some (VRef p)) None o Hu). cbn [vcontrib ptr_of is_ref] in *. lia.
    + intros m _. cbn [writes written]. rewrite Hc. destruct (loc_eqb_spec l m) as [<-|Hlm].
      * apply put_content_eq. congruence.
      * rewrite put_content_ne, (setv_content _ _ _ _ _ Hu) by auto. destruct (loc_eqb (LVar v) m); reflexivity.
  - (* CtorAlready *)
    destruct Hp as [Hu Hk]. destruct (kind1 _ _ Hk) as (p & Ew & -> & Hc). cbn [bind]. rewrite (set_var_ok _ _ _ _ Ew). cbn [bind].
    assert (Hvw : w <> v) by (intros ->; unfold unused in Hu; congruence).
    assert (Hu1 : unused (setv s w (Some (VAl None))) v) by (unfold unused; cbn [setv vars]; now rewrite nth_error_upd_ne).
    rewrite new_var_ok by auto. eexists. split; [reflexivity|]. split.
    + apply (moved s); [auto|apply same_refl|]. intros o.
      pose proof (setv_handles s w (Some (VAl None)) _ o Ew). pose proof (setv_handles _ v (Some (VRef p)) _ o Hu1). cbn [vcontrib ptr_of is_ref] in *. lia.
    + intros m _. rewrite (setv_content _ _ _ _ _ Hu1), (setv_content _ _ _ _ _ Ew). cbn [writes written option_map ptr_of]. rewrite Hc.
      destruct (loc_eqb_spec (LVar w) m) as [<-|]; [rewrite loc_eqb_ne by congruence; reflexivity|]. destruct (loc_eqb (LVar v) m); reflexivity.
  - (* AssignNull *)
    destruct (release_at s l None H Hp) as (p & s1 & -> & Hc & E & Ev & Hc1 & Hr1 & I & R & B & C & _). cbn [bind]. rewrite E. cbn [bind].
    rewrite write_ok by auto. eexists. split; [reflexivity|]. split; [exact I|].
    intros m Hm. cbn [writes written]. destruct (loc_eqb_spec l m) as [<-|Hlm]; [apply put_content_eq; congruence|].
    rewrite put_content_ne by auto. apply C. destruct m; [auto|]. destruct Hm as [_ Hm]. now apply (same_alive _ _ _ (put_same s1 l None)) in Hm.
  - (* AssignNew *)
    destruct (alloc_ok s k H) as (H1 & Hn & Hc0). cbv zeta in *. destruct (alloc s k) as [s0 n] eqn:Ea. cbn [fst] in *.
    assert (n = length (objs (hp s))) as -> by (unfold alloc in Ea; congruence).
    assert (Hce : forall m, content s m <> None -> content s0 m = content s m) by (intros m Hm; apply Hc0; now apply content_created).
    assert (Hs0 : secure s0 l l).
    { destruct Hp as [Hr Hs]. split.
      - destruct l as [v|y j]; cbn [is_refptr] in *; [unfold alloc in Ea; injection Ea as <-; exact Hr|]. rewrite Hce; auto.
      - destruct l; [auto|]. eapply reach_ext; eauto. }
    destruct (release_at s0 l _ H1 Hs0) as (p & s1 & -> & Hc & E & Ev & Hc1 & Hr1 & I & R & B & C & K). cbn [bind]. rewrite E. cbn [bind].
    destruct (assign_addref s1 l (Some (length (objs (hp s)))) _ I Hr1) as (s' & E' & I' & C' & A').
    { intros n X. injection X as <-. exists (Obj 0 Alive (repeat None k)). split; [|reflexivity]. now apply K. } { auto. }
    rewrite E'. eexists. split; [reflexivity|]. split; [exact I'|].
    intros m Hm. rewrite C'. cbn [writes written]. destruct (loc_eqb l m); [reflexivity|]. destruct m as [v|y j].
    + rewrite C by auto. apply Hc0. exact Logic.I.
    + destruct Hm as [Hcr Hal]. rewrite C by (apply A'; exact Hal). apply Hc0. exact Hcr.
  - (* AssignRaw *)
    destruct Hp as (Hs & Hrm & Hq). destruct (Hsrc m Hrm) as (q & Hcm & -> & Ha). cbn [bind].
    destruct (release_at s l None H Hs) as (p & s1 & -> & Hc & E & Ev & Hc1 & Hr1 & I & R & B & C & _). cbn [bind]. rewrite E. cbn [bind].
    destruct (assign_addref s1 l q None I Hr1) as (s' & E' & I' & C' & A').
    { intros n ->. apply R. now apply Hq. } { auto. }
    rewrite E'. eexists. split; [reflexivity|]. split; [exact I'|].
    intros x Hx. rewrite C'. cbn [writes written]. rewrite Hcm. destruct (loc_eqb l x); [reflexivity|]. apply C. destruct x; [auto|].
    apply A'. apply Hx.
  - (* AssignCopy *)
    destruct Hp as (Hs & Hsm & Hlm).
    destruct (release_at s l None H Hs) as (p & s1 & -> & Hc & E & Ev & Hc1 & Hr1 & I & R & B & C & _). cbn [bind]. rewrite E. cbn [bind].
    destruct (Hsrc m (proj1 Hsm)) as (q & Hcm & _ & _).
    assert (Hcm1 : content s1 m = Some q). { rewrite C; [exact Hcm|]. destruct Hsm as [_ Hsm]. destruct m; auto. }
    assert (Hrm1 : is_refptr s1 m).
    { destruct m as [v|y j]; cbn [is_refptr]; [|congruence]. unfold kind. rewrite Ev. exact (proj1 Hsm). }
    rewrite (read_ok _ _ _ Hrm1 Hcm1). cbn [bind].
    destruct (assign_addref s1 l q None I Hr1) as (s' & E' & I' & C' & A').
    { intros n ->. apply (same_alive _ _ n (put_same s1 l None)).
      apply (content_alive (put s1 l None) None m n I). rewrite put_content_ne by auto. exact Hcm1. } { auto. }
    rewrite E'. eexists. split; [reflexivity|]. split; [exact I'|].
    intros x Hx. rewrite C'. cbn [writes written]. rewrite Hcm. destruct (loc_eqb l x); [reflexivity|]. apply C. destruct x; [auto|].
    apply A'. apply Hx.
  - (* AssignMove *)
    destruct Hp as (Hs & Hsm).
    destruct (release_at s l None H Hs) as (p & s1 & -> & Hc & E & Ev & Hc1 & Hr1 & I & R & B & C & _). cbn [bind]. rewrite E. cbn [bind].
    destruct (Hsrc m (proj1 Hsm)) as (q & Hcm & _ & _).
    assert (Hcm1 : content s1 m = Some q). { rewrite C; [exact Hcm|]. destruct Hsm as [_ Hsm]. destruct m; auto. }
    assert (Hrm1 : is_refptr s1 m).
    { destruct m as [v|y j]; cbn [is_refptr]; [|congruence]. unfold kind. rewrite Ev. exact (proj1 Hsm). }
    rewrite (read_ok _ _ _ Hrm1 Hcm1). cbn [bind]. rewrite write_ok by auto. cbn [bind].
    rewrite write_ok by (now apply put_refptr). eexists. split; [reflexivity|].
    destruct (loc_eqb_spec l m) as [<-|Hlm].
    + rewrite put_put by congruence. split; [exact I|].
      intros x Hx. cbn [writes written]. destruct (loc_eqb_spec l x) as [<-|Hlx]; [apply put_content_eq; congruence|].
      rewrite put_content_ne by auto. apply C. destruct x; [auto|]. destruct Hx as [_ Hx]. now apply (same_alive _ _ _ (put_same s1 l None)) in Hx.
    + assert (Hcm2 : content (put s1 l q) m = Some q) by (rewrite put_content_ne; auto).
      assert (S2 : same_heap (hp s1) (hp (put (put s1 l q) m None))) by (eapply same_trans; apply put_same).
      split.
      * apply (moved (put s1 l None)); [auto| |].
        -- eapply same_trans; [apply same_sym, put_same|exact S2].
        -- intros o. pose proof (put_handles _ m q None o Hcm2). pose proof (put_handles s1 l p q o Hc1). pose proof (put_handles s1 l p None o Hc1).
           cbn [is_ref] in *. lia.
      * intros x Hx. cbn [writes written]. destruct (loc_eqb_spec m x) as [<-|Hmx]; [apply put_content_eq; congruence|].
        rewrite put_content_ne by auto. rewrite Hcm. destruct (loc_eqb_spec l x) as [<-|Hlx]; [apply put_content_eq; congruence|].
        rewrite put_content_ne by auto. apply C. destruct x; [auto|]. destruct Hx as [_ Hx]. now apply (same_alive _ _ _ S2) in Hx.
  - (* AssignAlready *)
    destruct Hp as (Hs & Hk).
    destruct (release_at s l None H Hs) as (p & s1 & -> & Hc & E & Ev & Hc1 & Hr1 & I & R & B & C & _). cbn [bind]. rewrite E. cbn [bind].
    assert (Hk1 : kind s1 w = Some 1) by (unfold kind; rewrite Ev; exact Hk).
    destruct (kind1 _ _ Hk1) as (q & Ew & -> & Hcw). cbn [bind]. rewrite (set_var_ok _ _ _ _ Ew). cbn [bind].
    assert (Hlw : l <> LVar w). { intros ->. destruct Hs as [Hr _]. cbn in Hr. congruence. }
    rewrite write_ok by (now apply setv_refptr).
    assert (Hc2 : content (setv s1 w (Some (VAl None))) l = Some p) by (rewrite (setv_content _ _ _ _ _ Ew), loc_eqb_ne by congruence; exact Hc1).
    assert (S2 : same_heap (hp s1) (hp (put (setv s1 w (Some (VAl None))) l q))) by exact (put_same (setv s1 w (Some (VAl None))) l q).
    eexists. split; [reflexivity|]. split.
    + apply (moved (put s1 l None)); [auto| |].
      * eapply same_trans; [apply same_sym, put_same|exact S2].
      * intros o. pose proof (put_handles _ l p q o Hc2). pose proof (setv_handles s1 w (Some (VAl None)) _ o Ew). pose proof (put_handles s1 l p None o Hc1).
        cbn [is_ref vcontrib ptr_of] in *. lia.
    + intros x Hx. cbn [writes written]. assert (Hcw0 : content s (LVar w) = Some q) by (rewrite <- (C (LVar w) Logic.I); exact Hcw). rewrite Hcw0.
      destruct (loc_eqb_spec (LVar w) x) as [<-|Hwx].
      * rewrite put_content_ne by auto. rewrite (setv_content _ _ _ _ _ Ew), loc_eqb_refl. reflexivity.
      * destruct (loc_eqb_spec l x) as [<-|Hlx]; [apply put_content_eq; congruence|].
        rewrite put_content_ne, (setv_content _ _ _ _ _ Ew), loc_eqb_ne by auto. apply C. destruct x; [auto|]. destruct Hx as [_ Hx].
        now apply (same_alive _ _ _ S2) in Hx.
  - (* Take *)
    destruct Hp as [Hu Hr]. destruct (Hsrc l Hr) as (p & Hc & -> & Ha). cbn [bind]. rewrite write_ok by auto. cbn [bind].
    pose proof (put_unused s l None v Hu) as Hu1. rewrite new_var_ok by auto. pose proof (refptr_ne_unused _ _ _ Hu Hr) as Hne.
    eexists. split; [reflexivity|]. split.
    + apply (moved s); [auto|exact (put_same s l None)|]. intros o.
      pose proof (put_handles _ l p None o Hc). pose proof (setv_handles _ v (Some (VAl p)) None o Hu1). cbn [vcontrib ptr_of is_ref] in *. lia.
    + intros m _. cbn [writes written]. rewrite Hc, (setv_content _ _ _ _ _ Hu1). cbn [option_map ptr_of].
      destruct (loc_eqb_spec l m) as [<-|Hlm].
      * rewrite loc_eqb_ne by congruence. apply put_content_eq. congruence.
      * rewrite put_content_ne by auto. destruct (loc_eqb (LVar v) m); reflexivity.
  - (* AlNull *)
    rewrite new_var_ok by auto. eexists. split; [reflexivity|]. split.
    + apply (moved s); [auto|apply same_refl|]. intros o. pose proof (setv_handles s v (Some (VAl None)) None o Hp). cbn in *. lia.
    + intros l _. rewrite (setv_content _ _ _ _ _ Hp). cbn [writes written]. destruct (loc_eqb (LVar v) l); reflexivity.
  - (* AlCopy *)
    destruct Hp as [Hu Hk]. destruct (kind1 _ _ Hk) as (p & Ew & -> & Hc). cbn [bind].
    destruct (ctor_addref s v VAl p ltac:(reflexivity) H Hu) as (s' & E & I & C). { intros n ->. eapply content_alive; eauto. }
    rewrite E. eexists. split; [reflexivity|]. split; [exact I|].
    intros m _. rewrite C. cbn [writes written]. rewrite Hc. destruct (loc_eqb (LVar v) m); reflexivity.
  - (* AlMove *)
    destruct Hp as [Hu Hk]. destruct (kind1 _ _ Hk) as (p & Ew & -> & Hc). cbn [bind].
    rewrite new_var_ok by auto. cbn [bind].
    assert (Hvw : v <> w) by (intros ->; unfold unused in Hu; congruence).
    assert (Ew1 : nth_error (vars (setv s v (Some (VAl p)))) w = Some (Some (VAl p))) by (cbn [setv vars]; now rewrite nth_error_upd_ne).
    rewrite (set_var_ok _ _ _ _ Ew1). eexists. split; [reflexivity|]. split.
    + apply (moved s); [auto|apply same_refl|]. intros o.
      pose proof (setv_handles s v (Some (VAl p)) _ o Hu). pose proof (setv_handles _ w (Some (VAl None)) _ o Ew1). cbn [vcontrib ptr_of is_ref] in *. lia.
    + intros m _. rewrite (setv_content _ _ _ _ _ Ew1), (setv_content _ _ _ _ _ Hu). cbn [writes written option_map ptr_of]. rewrite Hc.
      destruct (loc_eqb (LVar w) m); [reflexivity|]. destruct (loc_eqb (LVar v) m); reflexivity.
  - (* AlTake *)
    destruct Hp as [Hu Hk]. destruct (kind1 _ _ Hk) as (p & Ew & -> & Hc). cbn [bind]. rewrite (set_var_ok _ _ _ _ Ew). cbn [bind].
    assert (Hvw : w <> v) by (intros ->; unfold unused in Hu; congruence).
    assert (Hu1 : unused (setv s w (Some (VAl None))) v) by (unfold unused; cbn [setv vars]; now rewrite nth_error_upd_ne).
    rewrite new_var_ok by auto. eexists. split; [reflexivity|]. split.
    + apply (moved s); [auto|apply same_refl|]. intros o.
      pose proof (setv_handles s w (Some (VAl None)) _ o Ew). pose proof (setv_handles _ v (Some (VRaw p)) _ o Hu1). cbn [vcontrib ptr_of is_ref] in *. lia.
    + intros m _. rewrite (setv_content _ _ _ _ _ Hu1), (setv_content _ _ _ _ _ Ew). cbn [writes written option_map ptr_of]. rewrite Hc.
      destruct (loc_eqb_spec (LVar w) m) as [<-|]; [rewrite loc_eqb_ne by congruence; reflexivity|]. destruct (loc_eqb (LVar v) m); reflexivity.
  - (* Adopt *)
    destruct Hp as [Hu Hk]. destruct (kind2 _ _ Hk) as (p & Ew & -> & Hc). cbn [bind]. rewrite (set_var_ok _ _ _ _ Ew). cbn [bind].
    assert (Hvw : w <> v) by (intros ->; unfold unused in Hu; congruence).
    assert (Hu1 : unused (setv s w None) v) by (unfold unused; cbn [setv vars]; now rewrite nth_error_upd_ne).
    rewrite new_var_ok by auto. eexists. split; [reflexivity|]. split.
    + apply (moved s); [auto|apply same_refl|]. intros o.
      pose proof (setv_handles s w None _ o Ew). pose proof (setv_handles _ v (Some (VAl p)) _ o Hu1). cbn [vcontrib ptr_of is_ref] in *. lia.
    + intros m _. rewrite (setv_content _ _ _ _ _ Hu1), (setv_content _ _ _ _ _ Ew). cbn [writes written option_map ptr_of]. rewrite Hc.
      destruct (loc_eqb_spec (LVar w) m) as [<-|]; [rewrite loc_eqb_ne by congruence; reflexivity|]. destruct (loc_eqb (LVar v) m); reflexivity.
  - (* Destroy *)
    assert (G : exists x p, nth_error (vars s) v = Some (Some x) /\ ptr_of x = p /\ (x = VRef p \/ x = VAl p)).
    { destruct Hp as [Hk|Hk]; apply kind_inv in Hk as ([p|p|p] & E & K); try discriminate; eauto 6. }
    destruct G as (x & p & Ev & Ep & Hx). unfold get_var. rewrite (slot_get_ok _ _ _ Ev). cbn [bind].
    assert (Hc : content s (LVar v) = Some p) by (cbn; rewrite Ev; congruence).
    destruct (release_loc debug s (LVar v) p None H Logic.I Hc) as (h' & E & C & I & M & R).
    assert (E2 : (match x with VRef p | VAl p => do s0 <- lift s (Release debug (hp s) p); set_var s0 v None | VRaw _ => Fault Leak end) =
                 Ok (setv (State h' (vars s)) v None)).
    { destruct Hx as [->| ->]; unfold lift; rewrite E; cbn [bind]; apply (set_var_ok (State h' (vars s)) v None _ Ev). }
    rewrite E2. eexists. split; [reflexivity|]. split.
    + eapply sinv_same; [| |exact I].
      * unfold put. cbn [vars]. rewrite Ev. apply same_refl.
      * intros o. pose proof (put_handles (State h' (vars s)) (LVar v) p None o C). pose proof (setv_handles (State h' (vars s)) v None _ o Ev) as Y.
        cbn [vcontrib is_ref] in *. rewrite Ep in Y. lia.
    + intros m Hm. rewrite (setv_content (State h' (vars s)) v None _ m Ev). cbn [writes written option_map]. destruct (loc_eqb (LVar v) m); [reflexivity|].
      destruct m as [w|y j]; [reflexivity|]. destruct Hm as [_ Hm]. rewrite (mono_content (hp s)) by auto. destruct s; reflexivity.
Qed.

Lemma sinv0 n : sinv (init n) None.
Proof.
  assert (Hz : forall o, var_refs (init n) o = 0).
  { intros o. unfold var_refs, init. cbn [vars]. induction n; cbn; auto. }
  split; cbn [init hp objs log]; intros; try (destruct o; discriminate).
  - rewrite Hz in H. cbn in H. lia.
  - split; [intros []|intros (b & Hb & _); destruct o; discriminate].
  - split; [intros []|intros (b & Hb & _); destruct o; discriminate].
  - constructor.
Qed.

Lemma sinv_balanced s : sinv s None -> balanced s.
Proof.
  intros H. split; [|split; [|split]].
  - intros o Ho. unfold created in Ho. apply nth_error_Some in Ho. destruct (nth_error (objs (hp s)) o) as [ob|] eqn:E; [|congruence].
    exists ob. split; [reflexivity|]. destruct (st ob) eqn:Sb.
    + left. pose proof (i_rc _ _ _ _ H o ob E Sb) as R. fold (handles s o) in R.
      assert (rc ob <> 0). { intros Z. pose proof (i_pos _ _ _ _ H o ob E Sb Z). discriminate. }
      repeat split; auto; [lia|]. intros L. apply (i_dead _ _ _ _ H o) in L as (b & Hb & Db). congruence.
    + exfalso. apply (i_dy _ _ _ _ H o). eauto.
    + right. split; [|split; [auto|apply (i_dead _ _ _ _ H o); eauto]].
      destruct (Nat.eq_dec (handles s o) 0) as [|Hne]; [auto|]. destruct (i_tgt _ _ _ _ H o) as (b & Hb & Ab); [unfold handles in Hne; lia|]. congruence.
  - intros o Ho. destruct (i_tgt _ _ _ _ H o Ho) as (b & Hb & _). unfold created. apply nth_error_Some. congruence.
  - intros o Ho. apply (i_dead _ _ _ _ H o) in Ho as (b & Hb & _). unfold created. apply nth_error_Some. congruence.
  - exact (i_nd _ _ _ _ H).
Qed.

Lemma run_ok : forall ops s, sinv s None -> legal debug s ops -> exists s', run debug s ops = Ok s' /\ sinv s' None.
Proof.
  induction ops as [|o ops IH]; intros s H Hl; cbn [run]; [eauto|].
  inversion Hl as [|? ? ? Hp Hrest]; subst. destruct (step_ok s o H Hp) as (s1 & E & I & _). rewrite E. cbn [bind]. eauto.
Qed.
Lemma run_app ops2 : forall ops1 s, run debug s (ops1 ++ ops2) = do s1 <- run debug s ops1; run debug s1 ops2.
Proof. induction ops1 as [|o ops1 IH]; intros s; cbn [app run bind]; [reflexivity|]. destruct (step debug s o); cbn [bind]; auto. Qed.
Lemma legal_app ops2 : forall ops1 s s1, legal debug s (ops1 ++ ops2) -> run debug s ops1 = Ok s1 -> legal debug s ops1 /\ legal debug s1 ops2.
Proof.
  induction ops1 as [|o ops1 IH]; intros s s1 Hl E; cbn [app run] in *.
  - injection E as <-. split; [constructor|exact Hl].
  - inversion Hl as [|? ? ? Hp Hr]; subst. destruct (step debug s o) as [s2| |] eqn:Es; cbn [bind] in E; try discriminate.
    destruct (IH s2 s1 (Hr _ eq_refl) E) as [H1 H2]. split; [|exact H2]. constructor; [exact Hp|]. intros s' E'. rewrite E' in Es. now injection Es as ->.
Qed.
End S.
