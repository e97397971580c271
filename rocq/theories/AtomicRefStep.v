(** Every allowed step keeps the invariant. *)
From Verif Require Import Base AtomicRefModel AtomicRefSpec AtomicRefProofs.
Local Open Scope N_scope.

Section Step.
Variable vt : variant.
Variable debug : bool.
Notation inv := (inv vt).

Ltac nums H a X Y := intros a;
  match goal with |- addr_ok _ _ (handles (State ?h ?cs (upd (threads ?s) ?t ?th') ?f ?d) _) _ _ =>
    pose proof (handles_upd s h cs f d t _ th' a H) as X;
    pose proof (owners_upd s h cs f d t _ th' a H) as Y;
    unfold tref in X; cbn [tpc held pc_refs owner] in X, Y;
    generalize dependent (handles (State h cs (upd (threads s) t th') f d) a); intros;
    generalize dependent (owners (State h cs (upd (threads s) t th') f d) a); intros
  end.

Lemma addr_case s a : inv s -> addr_ok vt (hp s a) (handles s a) (owners s a) a.
Proof. intros I. apply I. Qed.

(** AddRef: thread [t] moves from [p] to [p'] and one more reference to [b] is accounted for. *)
Lemma addref_step s t p l p' l' b ob : inv s -> nth_error (threads s) t = Some (Thread p l) ->
  hp s b = Some ob ->
  (forall a, tref a (Thread p' l') = tref a (Thread p l) + refto a b)%nat ->
  (forall a, owner a p' = owner a p \/ (a = b /\ owner a p' = 0 /\ owner a p = 1))%nat ->
  (owner b p' = 0)%nat -> ((0 < handles s b)%nat \/ owner b p = 1%nat) ->
  thread_ok vt (cells s) p' l' -> (forall c, excl c p' = excl c p) ->
  exists s', (do h <- addref vt debug (hp s) b; setpc (sethp s h) t p' l') = Ok s' /\ inv s' /\
    s' = State (hset (hp s) b (Some (Tobj (ser ob) (S (cnt ob)) (dying ob)))) (cells s) (upd (threads s) t (Thread p' l')) (fresh s) (deleted s).
Proof.
  intros I H Hb Hr Ho Hob Hh Ht He. destruct (live_facts vt s b ob I Hb) as (Nb & Ab & Db & Cb).
  rewrite (addref_ok vt debug _ _ ob Hb Db). cbn [bind]. rewrite (setpc_ok _ _ (Thread p l)) by exact H. cbn [sethp hp cells threads fresh deleted].
  eexists. split; [reflexivity|]. split; [|reflexivity].
  eapply frame_cells; eauto; [|eapply ser_hset; [apply I|exact Hb|reflexivity]].
  nums H a X Y. pose proof (Hr a) as Ra. unfold tref in Ra. cbn [tpc held] in Ra. pose proof (addr_case s a I) as Z. pose proof (Ho a) as Oa.
  destruct (N.eq_dec a b) as [->|Hne].
  - rewrite hset_eq. rewrite Hb in Z. cbn in Z |- *. rewrite refto_self in Ra by auto.
    destruct Z as (Z1 & Z2 & Z3 & Z4 & Z5 & Z6 & Z7).
    assert (owners s b = owner b p) as Eo.
    { destruct Hh as [Hh|Hh]; [|rewrite Hh in *; lia]. assert (owners s b = 0)%nat by (destruct (owners s b) as [|[|]]; lia). lia. }
    repeat split; auto; try lia.
  - rewrite hset_ne by auto. assert (refto a b = 0)%nat by (destruct (refto_cases a b) as [(?&_)|[_ ?]]; [congruence|auto]).
    replace n with (handles s a) by lia. replace n0 with (owners s a); [exact Z|]. destruct Oa as [Oa|(?&_)]; [lia|congruence].
Qed.

Lemma excl_one s t p l c x : inv s -> nth_error (threads s) t = Some (Thread p l) -> nth_error (cells s) c = Some x ->
  excl c p = 1%nat -> forall u th, u <> t -> nth_error (threads s) u = Some th -> excl c (tpc th) = 0%nat.
Proof.
  intros I H Hc E u th Hne Hu. pose proof (i_lock vt s I c x Hc) as L.
  pose proof (sum_two (fun th => excl c (tpc th)) _ _ _ _ _ Hne Hu H) as T. cbn [tpc] in T.
  assert (cexcl x <= 1)%nat by (destruct x as [| |w]; cbn; try lia; destruct (N.odd w); lia). cbn in L. lia.
Qed.
Lemma excl_none s c x : inv s -> nth_error (cells s) c = Some x -> cexcl x = 0%nat ->
  forall u th, nth_error (threads s) u = Some th -> excl c (tpc th) = 0%nat.
Proof.
  intros I Hc E u th Hu. pose proof (i_lock vt s I c x Hc) as L. pose proof (sum_ge (fun th => excl c (tpc th)) _ _ _ Hu) as T. cbn in *. lia.
Qed.
(** Others are unaffected by a write to a cell that stays constructed, unless they have exclusive use. *)
Lemma other_ok cs c w p l y : nth_error cs c = Some y -> excl c p = 0%nat -> thread_ok vt cs p l -> thread_ok vt (upd cs c (CLive w)) p l.
Proof.
  intros Hy He. assert (Hlt : (c < length cs)%nat) by (apply nth_error_Some; congruence).
  assert (G : forall d, live cs d -> live (upd cs c (CLive w)) d).
  { intros d [w' Hd]. destruct (Nat.eq_dec c d) as [<-|]; [exists w; now apply nth_error_upd_eq|exists w'; now rewrite nth_error_upd_ne]. }
  assert (K : forall d x, c <> d -> nth_error cs d = Some x -> nth_error (upd cs c (CLive w)) d = Some x) by (intros; now rewrite nth_error_upd_ne).
  destruct p; cbn [thread_ok excl] in *; auto; try (intros (A & B); split; auto; fail); try (intros (A & B & C); auto; fail).
  all: destruct (Nat.eqb_spec c c0); [discriminate|]; unfold locked; intuition auto.
Qed.
(** A write to cell [c] by a thread that becomes or ceases to be its exclusive user. *)
Lemma lock_write s t p l p' l' c w y : inv s -> nth_error (threads s) t = Some (Thread p l) -> nth_error (cells s) c = Some y ->
  (forall d, d <> c -> excl d p' = excl d p) ->
  (excl c p' + cexcl y = excl c p + cexcl (CLive w))%nat ->
  lock_ok (upd (cells s) c (CLive w)) (upd (threads s) t (Thread p' l')).
Proof.
  intros I H Hy Hd Hc d x Hx. pose proof (excl_upd s t _ (Thread p' l') d H) as X. cbn [tpc] in X.
  destruct (Nat.eq_dec c d) as [<-|Hne].
  - rewrite nth_error_upd_eq in Hx by (apply nth_error_Some; congruence). injection Hx as <-. pose proof (i_lock vt s I c y Hy). lia.
  - rewrite nth_error_upd_ne in Hx by auto. rewrite Hd in X by auto. pose proof (i_lock vt s I d x Hx). lia.
Qed.
Lemma cells_upd a cs c x y : nth_error cs c = Some y -> (sum (map (cell_refs a) (upd cs c x)) + cell_refs a y = sum (map (cell_refs a) cs) + cell_refs a x)%nat.
Proof. apply sum_upd. Qed.

(** Word stored in a cell: null or the address of a live object. *)
Lemma cell_word s c w : inv s -> nth_error (cells s) c = Some (CLive w) -> untagged w = 0 \/ exists ob, hp s (untagged w) = Some ob /\ (0 < handles s (untagged w))%nat.
Proof.
  intros I Hc. destruct (N.eq_dec (untagged w) 0) as [|Hne]; [auto|right].
  pose proof (handles_cell s c _ (untagged w) Hc) as X. cbn [cell_refs] in X. rewrite refto_self in X by auto.
  destruct (refs_live vt s (untagged w) I) as (ob & E & _); [lia|]. exists ob. split; [auto|lia].
Qed.
Lemma op_live s t p l o : inv s -> nth_error (threads s) t = Some (Thread p l) -> own_op l o -> forall v c,
  locked (cells s) c v -> target o v <> 0 -> exists ob, hp s (target o v) = Some ob /\ (0 < handles s (target o v))%nat.
Proof.
  intros I H Ho v c [Hc Ev] Hn. destruct o as [|q]; cbn [target own_op] in *.
  - destruct (cell_word s c _ I Hc) as [X|X]; rewrite untagged_tagged, (untagged_even v Ev) in X; [contradiction|exact X].
  - destruct Ho as [->|Ho]; [contradiction|]. destruct (held_live vt s t _ q I H Ho) as (ob & E & _ & P). eauto.
Qed.
Lemma target_even s t p l o : inv s -> nth_error (threads s) t = Some (Thread p l) -> own_op l o -> forall v c,
  locked (cells s) c v -> N.even (target o v) = true.
Proof.
  intros I H Ho v c L. destruct (N.eq_dec (target o v) 0) as [->|Hn]; [reflexivity|].
  destruct (op_live s t p l o I H Ho v c L Hn) as (ob & E & _). destruct (live_facts vt s _ ob I E) as (_ & A & _). now apply aligned_even.
Qed.

Ltac pcs := intros; unfold tref; cbn [tpc held pc_refs owner excl]; rewrite ?refto_0; try reflexivity; try lia.
Lemma enter_cases c o v : (target o v = 0 /\ enter c o v = UnA c o v) \/ (target o v <> 0 /\ enter c o v = CritAdd c o v).
Proof. unfold enter. destruct (N.eqb_spec (target o v) 0); auto. Qed.

Theorem cont_ok s t p l : inv s -> nth_error (threads s) t = Some (Thread p l) -> p <> Idle ->
  exists s' o, cont vt debug s t p l = Ok (s', o) /\ inv s'.
Proof.
  intros I H Hp. pose proof (i_thr vt s I t _ H) as T. cbn [tpc held] in T.
  destruct p as [|a|a|a k|a k|a k|c o|c o old|c o v|c o v|c o v x|c o v|c q|w]; cbn [cont thread_ok] in *; [congruence| | | | | | | | | | | | |].
  - (* NewP *)
    assert (exists ob, hp s a = Some ob) as [ob Hob].
    { pose proof (addr_case s a I) as Z. destruct (hp s a); [eauto|]. cbn in Z. destruct Z as [_ Z].
      pose proof (sum_ge (fun th => owner a (tpc th)) _ _ _ H) as G. cbn [tpc owner] in G. rewrite refto_self in G by auto. unfold owners in Z. lia. }
    destruct (addref_step s t (NewP a) l Idle (a :: l) a ob I H Hob) as (s' & E & I' & _); auto; try (pcs; fail).
    + pcs. rewrite count_cons, refto_eqdec by auto. lia.
    + intros b. cbn. destruct (refto_cases b a) as [(-> & _ & ->)|[_ ->]]; auto.
    + right. cbn. now apply refto_self.
    + unfold bind in E |- *. destruct (addref vt debug (hp s) a); try discriminate. rewrite E. eauto.
  - (* Add *)
    destruct (held_live vt s t _ a I H T) as (ob & Hob & _ & P). destruct (live_facts vt s a ob I Hob) as (Na & _).
    destruct (addref_step s t (Add a) l Idle (a :: l) a ob I H Hob) as (s' & E & I' & _); auto; try (pcs; fail).
    + pcs. rewrite count_cons, refto_eqdec by auto. lia.
    + unfold bind in E |- *. destruct (addref vt debug (hp s) a); try discriminate. rewrite E. eauto.
  - (* RelSub *)
    assert (exists ob, hp s a = Some ob /\ cnt ob = handles s a /\ (0 < handles s a)%nat) as (ob & Hob & Cb & Pb).
    { pose proof (handles_thr s t _ a H) as L. unfold tref in L. cbn [tpc held pc_refs] in L. rewrite refto_self in L by auto.
      destruct (refs_live vt s a I) as (ob & E & C); [lia|]. exists ob. repeat split; auto. lia. }
    rewrite Hob. destruct (live_facts vt s a ob I Hob) as (_ & Ab & Db & _).
    assert (Oz : owners s a = 0%nat). { pose proof (addr_case s a I) as Z. rewrite Hob in Z. cbn in Z. destruct (owners s a) as [|[|]]; lia. }
    assert (G : forall p', (p' = Idle \/ exists k, p' = RelAssert a k) -> (vt = Plain -> (p' = Idle <-> cnt ob <> 1%nat)) -> (vt = Virtual -> p' = Idle) ->
      inv (State (hset (hp s) a (Some (Tobj (ser ob) (pred (cnt ob)) (dying ob)))) (cells s) (upd (threads s) t (Thread p' l)) (fresh s) (deleted s))).
    { intros p' Hp' HP HV. eapply frame_cells; eauto.
      - nums H b X Y. pose proof (addr_case s b I) as Z. destruct (N.eq_dec b a) as [->|Hne].
        + rewrite hset_eq. rewrite Hob in Z. cbn in Z |- *. rewrite refto_self in X by auto.
          destruct Hp' as [->|[k' ->]]; cbn [pc_refs owner] in X, Y; rewrite ?refto_self in Y by auto.
          * repeat split; auto; try lia. intros V Hz. destruct (HP V) as [HP1 _]. specialize (HP1 eq_refl). lia.
          * destruct vt eqn:Ev; [|specialize (HV eq_refl); discriminate]. destruct (HP eq_refl) as [_ HP2].
            assert (cnt ob = 1%nat) by (destruct (Nat.eq_dec (cnt ob) 1) as [|Hn1]; [auto|specialize (HP2 Hn1); discriminate]).
            repeat split; auto; try lia.
        + rewrite hset_ne by auto. assert (Er : refto b a = 0%nat) by (destruct (refto_cases b a) as [(?&_)|[_ ?]]; [congruence|auto]). rewrite Er in X.
          assert (pc_refs b p' = 0 /\ owner b p' = 0)%nat as [E1 E2] by (destruct Hp' as [->|[k' ->]]; cbn; auto). rewrite E1 in X. rewrite E2 in Y.
          replace n with (handles s b) by lia. replace n0 with (owners s b) by lia. exact Z.
      - destruct Hp' as [->|[k' ->]]; cbn; auto. split; auto. destruct vt; [auto|specialize (HV eq_refl); discriminate].
      - destruct Hp' as [->|[k' ->]]; reflexivity.
      - eapply ser_hset; [apply I|exact Hob|reflexivity]. }
    destruct (Nat.eqb_spec (cnt ob) (match vt with Plain => 1%nat | Virtual => 0%nat end)) as [Ec|Ec].
    + rewrite (setpc_ok _ _ (Thread (RelSub a k) l)) by exact H. cbn [bind]. eexists _, _. split; [reflexivity|]. apply G; eauto.
      * intros Ev. rewrite Ev in Ec. split; [discriminate|congruence].
      * intros Ev. rewrite Ev in Ec. lia.
    + rewrite (setpc_ok _ _ (Thread (RelSub a k) l)) by exact H. cbn [bind]. eexists _, _. split; [reflexivity|]. apply G; eauto.
      intros Ev. rewrite Ev in Ec. tauto.
  - (* RelAssert *)
    destruct T as [Na Ev]. pose proof (addr_case s a I) as Z. pose proof (sum_ge (fun th => owner a (tpc th)) _ _ _ H) as G. cbn [tpc owner] in G. rewrite refto_self in G by auto.
    fold (owners s a) in G. destruct (hp s a) as [ob|] eqn:Hob; [|cbn in Z; lia]. cbn in Z. assert (Ez : cnt ob = 0%nat) by lia. rewrite Ez. cbn [Nat.eqb].
    rewrite assert_true. cbn [bind]. rewrite Ev. rewrite (setpc_ok _ _ (Thread (RelAssert a k) l)) by exact H. cbn [bind].
    eexists _, _. split; [reflexivity|]. rewrite <- Ev. eapply frame_pc; eauto; pcs. cbn. auto.
  - (* RelDel *)
    destruct T as [Na Ev]. pose proof (addr_case s a I) as Z. pose proof (sum_ge (fun th => owner a (tpc th)) _ _ _ H) as G. cbn [tpc owner] in G. rewrite refto_self in G by auto.
    fold (owners s a) in G. destruct (hp s a) as [ob|] eqn:Hob; [|cbn in Z; lia]. cbn in Z. 
    rewrite (setpc_ok _ _ (Thread (RelDel a k) l)) by exact H. cbn [bind hp cells threads fresh deleted].
    eexists _, _. split; [reflexivity|]. eapply frame_cells; eauto; [|cbn; auto|now apply ser_del; [apply I|]].
    nums H b X Y. pose proof (addr_case s b I) as Zb. destruct (N.eq_dec b a) as [->|Hne].
    + rewrite hset_eq. cbn. rewrite refto_self in Y by auto. lia.
    + rewrite hset_ne by auto. assert (Er : refto b a = 0%nat) by (destruct (refto_cases b a) as [(?&_)|[_ ?]]; [congruence|auto]). rewrite Er in Y.
      replace n with (handles s b) by lia. replace n0 with (owners s b) by lia. exact Zb.
  - (* LkLoad *)
    destruct T as [[w Hw] Ho]. rewrite (load_ok _ _ _ Hw). cbn [bind]. rewrite (setpc_ok _ _ _ _ _ H). cbn [bind]. eexists _, _. split; [reflexivity|].
    eapply frame_pc; eauto; pcs. cbn. split; [eexists; eauto|]. split; [auto|]. apply untagged_is_even.
  - (* LkCas *)
    destruct T as ([w Hw] & Ho & Eo). rewrite (load_ok _ _ _ Hw). cbn [bind]. destruct (N.eqb_spec w old) as [->|Hne].
    + rewrite (setcell_ok _ _ _ _ Hw). cbn [bind]. rewrite (setpc_ok _ _ (Thread (LkCas c o old) l)) by exact H. cbn [bind hp cells threads fresh deleted]. eexists _, _. split; [reflexivity|].
      assert (Hlt : (c < length (cells s))%nat) by (apply nth_error_Some; congruence).
      assert (Odd : N.odd old = false) by (rewrite odd_even, Eo; reflexivity).
      eapply frame; eauto.
      * nums H b X Y. pose proof (cells_upd b _ c (CLive (tagged old)) _ Hw) as W. cbn [cell_refs] in W. rewrite untagged_tagged in W.
        assert (E : tref b (Thread (enter c o old) l) = tref b (Thread (LkCas c o old) l) /\ owner b (enter c o old) = 0%nat \/ 
                    target o old = 0 /\ enter c o old = UnA c o old).
        { destruct (enter_cases c o old) as [?|[_ ->]]; auto. }
        assert (pc_refs b (enter c o old) = 0 /\ owner b (enter c o old) = 0)%nat as [E1 E2].
        { destruct (enter_cases c o old) as [[Z ->]|[_ ->]]; cbn; auto. rewrite Z, refto_0. auto. }
        rewrite E1 in X. rewrite E2 in Y. replace n with (handles s b) by lia. replace n0 with (owners s b) by lia. apply I.
      * assert (L : locked (upd (cells s) c (CLive (tagged old))) c old) by (split; [now apply nth_error_upd_eq|exact Eo]).
        destruct (enter_cases c o old) as [[Z ->]|[Z ->]]; cbn; auto.
      * intros u thu Hu Hthu. apply (other_ok _ _ _ _ _ _ Hw). eapply excl_none; eauto. cbn. now rewrite Odd.
      * eapply lock_write; eauto.
        -- intros d Hd. destruct (enter_cases c o old) as [[_ ->]|[_ ->]]; cbn; destruct (Nat.eqb_spec d c); congruence.
        -- cbn [cexcl]. rewrite Odd, tagged_odd. destruct (enter_cases c o old) as [[_ ->]|[_ ->]]; cbn; now rewrite Nat.eqb_refl.
      * apply I.
    + rewrite (setpc_ok _ _ _ _ _ H). cbn [bind]. eexists _, _. split; [reflexivity|]. eapply frame_pc; eauto; pcs. cbn. split; [eexists; eauto|auto].
  - (* CritAdd *)
    destruct T as (L & Ho & Hn). destruct (op_live s t _ l o I H Ho v c L Hn) as (ob & Hob & Pb).
    destruct (addref_step s t (CritAdd c o v) l (UnA c o v) l (target o v) ob I H Hob) as (s' & E & I' & _); auto; try (pcs; fail).
    + cbn. auto.
    + unfold bind in E |- *. destruct (addref vt debug (hp s) (target o v)); try discriminate. rewrite E. eauto.
  - (* UnA *)
    destruct T as [[Hc Ev] Ho]. rewrite (load_ok _ _ _ Hc). cbn [bind]. rewrite (setpc_ok _ _ _ _ _ H). cbn [bind]. eexists _, _. split; [reflexivity|].
    eapply frame_pc; eauto; pcs. cbn. unfold locked. auto.
  - (* UnB *)
    destruct T as (L & Ho & ->). pose proof L as [Hc Ev]. rewrite (load_ok _ _ _ Hc). cbn [bind]. rewrite tagged_tagged, N.eqb_refl, assert_true. cbn [bind].
    pose proof (target_even s t _ l o I H Ho v c L) as Et. rewrite (untagged_even _ Et), N.eqb_refl, assert_true. cbn [bind].
    rewrite (setpc_ok _ _ _ _ _ H). cbn [bind]. eexists _, _. split; [reflexivity|]. eapply frame_pc; eauto; pcs. cbn. auto.
  - (* UnStore *)
    destruct T as (L & Ho). pose proof L as [Hc Ev]. rewrite (load_ok _ _ _ Hc). cbn [bind]. rewrite (setcell_ok _ _ _ _ Hc). cbn [bind].
    pose proof (target_even s t _ l o I H Ho v c L) as Et.
    assert (Odd : N.odd (target o v) = false) by (rewrite odd_even, Et; reflexivity).
    assert (Others : forall u thu, u <> t -> nth_error (threads s) u = Some thu -> thread_ok vt (cells s) (tpc thu) (held thu) ->
              thread_ok vt (upd (cells s) c (CLive (target o v))) (tpc thu) (held thu)).
    { intros u thu Hu Hthu. apply (other_ok _ _ _ _ _ _ Hc). eapply excl_one; eauto. cbn. now rewrite Nat.eqb_refl. }
    assert (Lk : forall p' l', (forall d, excl d p' = 0%nat) -> lock_ok (upd (cells s) c (CLive (target o v))) (upd (threads s) t (Thread p' l'))).
    { intros p' l' Hx. eapply lock_write; eauto.
      - intros d Hd. rewrite Hx. cbn. destruct (Nat.eqb_spec d c); congruence.
      - rewrite Hx. cbn [cexcl excl]. rewrite Odd, tagged_odd, Nat.eqb_refl. reflexivity. }
    assert (Hv : v = 0 \/ v <> 0) by (destruct (N.eq_dec v 0); auto).
    destruct o as [|q]; cbn [target] in *.
    + rewrite (setpc_ok _ _ (Thread (UnStore c OGet v) l)) by exact H. cbn [bind hp cells threads fresh deleted]. eexists _, _. split; [reflexivity|].
      eapply frame; eauto; [|apply I].
      nums H b X Y. pose proof (cells_upd b _ c (CLive v) _ Hc) as W. cbn [cell_refs] in W. rewrite untagged_tagged in W. cbn [target] in X.
      replace n with (handles s b); [replace n0 with (owners s b) by lia; apply I|].
      destruct (N.eqb_spec v 0) as [->|Hn]; [rewrite refto_0 in X; lia|]. rewrite count_cons, <- (refto_eqdec b v Hn) in X. lia.
    + rewrite (setpc_ok _ _ (Thread (UnStore c (OSet q) v) l)) by exact H. cbn [bind hp cells threads fresh deleted]. eexists _, _. split; [reflexivity|].
      assert (Hr : (v = 0 /\ release_pc v (Some (c, q)) = Idle) \/ (v <> 0 /\ release_pc v (Some (c, q)) = RelSub v (Some (c, q)))).
      { unfold release_pc. destruct (N.eqb_spec v 0); auto. }
      eapply frame; eauto; [| |apply Lk|apply I].
      * nums H b X Y. pose proof (cells_upd b _ c (CLive q) _ Hc) as W. cbn [cell_refs] in W. rewrite untagged_tagged in W. cbn [target] in X.
        rewrite (untagged_even v Ev), (untagged_even q Et) in W.
        assert (pc_refs b (release_pc v (Some (c, q))) = refto b v /\ owner b (release_pc v (Some (c, q))) = 0%nat) as [E1 E2].
        { destruct Hr as [[-> ->]|[_ ->]]; cbn; rewrite ?refto_0; auto. }
        rewrite E1 in X. rewrite E2 in Y. replace n with (handles s b) by lia. replace n0 with (owners s b) by lia. apply I.
      * destruct Hr as [[_ ->]|[Hn ->]]; cbn; auto.
      * intros d. destruct Hr as [[_ ->]|[Hn ->]]; reflexivity.
  - (* CtAdd *)
    destruct T as [Hc Hq]. destruct (held_live vt s t _ q I H Hq) as (ob & Hob & Cb & Pb). destruct (live_facts vt s q ob I Hob) as (Nq & Aq & Dq & _).
    rewrite (addref_ok vt debug _ _ ob Hob Dq). cbn [bind]. rewrite (setcell_ok _ _ _ CBusy) by exact Hc. cbn [bind].
    rewrite (setpc_ok _ _ (Thread (CtAdd c q) l)) by exact H. cbn [bind hp cells threads fresh deleted sethp]. eexists _, _. split; [reflexivity|].
    assert (Odd : N.odd q = false) by (rewrite odd_even, (aligned_even q Aq); reflexivity).
    eapply frame; eauto.
    + nums H b X Y. pose proof (cells_upd b _ c (CLive q) _ Hc) as W. cbn [cell_refs] in W. rewrite (untagged_even q (aligned_even q Aq)) in W.
      pose proof (addr_case s b I) as Z. destruct (N.eq_dec b q) as [->|Hne].
      * rewrite hset_eq. rewrite refto_self in W by auto. rewrite Hob in Z. cbn in Z |- *. repeat split; auto; lia.
      * rewrite hset_ne by auto. assert (Er : refto b q = 0%nat) by (destruct (refto_cases b q) as [(?&_)|[_ ?]]; [congruence|auto]). rewrite Er in W.
        replace n with (handles s b) by lia. replace n0 with (owners s b) by lia. exact Z.
    + cbn. auto.
    + intros u thu Hu Hthu. apply (other_ok _ _ _ _ _ _ Hc). eapply excl_one; eauto. cbn. now rewrite Nat.eqb_refl.
    + eapply lock_write; eauto.
      * intros d Hd. cbn. destruct (Nat.eqb_spec d c); congruence.
      * cbn [cexcl excl]. rewrite Odd, Nat.eqb_refl. reflexivity.
    + eapply ser_hset; [apply I|exact Hob|reflexivity].
  - (* DtA *)
    rewrite (untagged_even w T), N.eqb_refl, assert_true. cbn [bind]. rewrite (setpc_ok _ _ _ _ _ H). cbn [bind]. eexists _, _. split; [reflexivity|].
    unfold release_pc. destruct (N.eqb_spec w 0) as [->|Hn]; (eapply frame_pc; eauto; pcs).
    + now rewrite (untagged_even w T).
Qed.
Lemma upd_same {A} (l : list A) i x : nth_error l i = Some x -> upd l i x = l.
Proof. revert i. induction l as [|a l IH]; intros [|i] H; cbn in *; try discriminate; [congruence|]. now rewrite IH. Qed.

(** Threads that do not use cell [c] do not notice what happens to it. *)
Lemma unused_ok cs c x p l : ~ uses p c -> thread_ok vt cs p l -> thread_ok vt (upd cs c x) p l.
Proof.
  intros Hu. assert (K : forall d y, c <> d -> nth_error cs d = y -> nth_error (upd cs c x) d = y) by (intros; now rewrite nth_error_upd_ne).
  destruct p; cbn [thread_ok uses] in *; auto; assert (c <> c0) by congruence; unfold live, locked.
  - intros ([w Hw] & B). eauto.
  - intros ([w Hw] & B). eauto.
  - intros ((A & B) & C). auto.
  - intros ((A & B) & C). auto.
  - intros ((A & B) & C). auto.
  - intros ((A & B) & C). auto.
  - intros (A & B). auto.
Qed.
Lemma none_unused s u th c : inv s -> nth_error (threads s) u = Some th -> nth_error (cells s) c = Some CNone -> ~ uses (tpc th) c.
Proof.
  intros I H Hc U. pose proof (i_thr vt s I u th H) as T. destruct (tpc th); cbn [uses thread_ok] in *; try contradiction; subst; unfold live, locked in T.
  - destruct T as ([w Hw] & _). congruence.
  - destruct T as ([w Hw] & _). congruence.
  - destruct T as ((A & _) & _). congruence.
  - destruct T as ((A & _) & _). congruence.
  - destruct T as ((A & _) & _). congruence.
  - destruct T as ((A & _) & _). congruence.
  - destruct T as (A & _). congruence.
Qed.
Lemma uses_excl p c : ~ uses p c -> excl c p = 0%nat.
Proof. intros U. destruct p; cbn [uses excl] in *; auto; destruct (Nat.eqb_spec c c0); congruence. Qed.

Theorem start_ok s t l a : inv s -> nth_error (threads s) t = Some (Thread Idle l) -> allowed s (EStart t a) ->
  exists s' o, start debug s t l a = Ok (s', o) /\ inv s'.
Proof.
  intros I H (th & Hth & _ & Ha). rewrite H in Hth. injection Hth as <-. cbn [held] in Ha.
  destruct a as [a|a|a|a u|c|c q|c q|c]; cbn [start].
  - (* ANew *)
    destruct Ha as (Hn & N0 & Al). rewrite (setpc_ok _ _ (Thread Idle l)) by exact H. cbn [bind hp cells threads fresh deleted]. eexists _, _. split; [reflexivity|].
    eapply frame_cells; eauto; [|now apply ser_new; [apply I|]].
    nums H b X Y. pose proof (addr_case s b I) as Z. destruct (N.eq_dec b a) as [->|Hne].
    + rewrite hset_eq. rewrite Hn in Z. cbn in Z |- *. rewrite refto_self in Y by auto. repeat split; auto; lia.
    + rewrite hset_ne by auto. assert (Er : refto b a = 0%nat) by (destruct (refto_cases b a) as [(?&_)|[_ ?]]; [congruence|auto]). rewrite Er in Y.
      replace n with (handles s b) by lia. replace n0 with (owners s b) by lia. exact Z.
  - (* AAddRef *)
    rewrite (setpc_ok _ _ _ _ _ H). cbn [bind]. eexists _, _. split; [reflexivity|]. eapply frame_pc; eauto; pcs.
  - (* ARelease *)
    rewrite (setpc_ok _ _ _ _ _ H). cbn [bind]. eexists _, _. split; [reflexivity|].
    destruct (held_live vt s t _ a I H Ha) as (ob & Hob & _). destruct (live_facts vt s a ob I Hob) as (Na & _).
    eapply frame_pc; eauto; pcs. rewrite (refto_eqdec _ a Na). pose proof (count_remove1 a0 a l Ha). lia.
  - (* AGive *)
    destruct Ha as [Ha Hu]. rewrite (setpc_ok _ _ _ _ _ H). cbn [bind].
    set (ths1 := upd (threads s) t (Thread Idle (remove1 a l))). cbn [threads].
    destruct (nth_error ths1 u) as [thu|] eqn:Eu; [|apply nth_error_None in Eu; unfold ths1 in Eu; rewrite upd_length in Eu; lia].
    unfold slot_get. rewrite Eu. cbn [bind]. rewrite (setpc_ok _ _ thu) by exact Eu. cbn [bind hp cells threads fresh deleted].
    eexists _, _. split; [reflexivity|].
    assert (R : forall b, handles (State (hp s) (cells s) (upd ths1 u (Thread (tpc thu) (a :: held thu))) (fresh s) (deleted s)) b = handles s b).
    { intros b. unfold handles. cbn [threads cells]. pose proof (sum_upd (tref b) _ _ (Thread (tpc thu) (a :: held thu)) _ Eu) as X.
      pose proof (sum_upd (tref b) _ _ (Thread Idle (remove1 a l)) _ H) as Y. fold ths1 in Y. unfold tref in X, Y. cbn [tpc held pc_refs] in X, Y.
      rewrite count_cons in X. pose proof (count_remove1 b a l Ha). lia. }
    assert (O : forall b, owners (State (hp s) (cells s) (upd ths1 u (Thread (tpc thu) (a :: held thu))) (fresh s) (deleted s)) b = owners s b).
    { intros b. unfold owners. cbn [threads]. pose proof (sum_upd (fun th => owner b (tpc th)) _ _ (Thread (tpc thu) (a :: held thu)) _ Eu) as X.
      pose proof (sum_upd (fun th => owner b (tpc th)) _ _ (Thread Idle (remove1 a l)) _ H) as Y. fold ths1 in Y. cbn [tpc owner] in X, Y. lia. }
    assert (W : forall v th, nth_error ths1 v = Some th -> thread_ok vt (cells s) (tpc th) (held th)).
    { intros v th Hv. unfold ths1 in Hv. destruct (Nat.eq_dec t v) as [<-|Hne].
      - rewrite nth_error_upd_eq in Hv by (apply nth_error_Some; congruence). injection Hv as <-. cbn. auto.
      - rewrite nth_error_upd_ne in Hv by auto. now apply (i_thr vt s I v). }
    split; cbn [hp cells threads fresh deleted].
    + intros b. rewrite R, O. apply I.
    + intros v th Hv. destruct (Nat.eq_dec u v) as [<-|Hne].
      * rewrite nth_error_upd_eq in Hv by (apply nth_error_Some; congruence). injection Hv as <-. cbn [tpc held].
        pose proof (W u thu Eu) as T.
        assert (G : forall o, own_op (held thu) o -> own_op (a :: held thu) o) by (intros [|z]; cbn; tauto).
        destruct (tpc thu); cbn [thread_ok] in *; auto; try (right; exact T); intuition auto. right; auto.
      * rewrite nth_error_upd_ne in Hv by auto. eauto.
    + intros d x Hd. pose proof (sum_upd (fun th => excl d (tpc th)) _ _ (Thread (tpc thu) (a :: held thu)) _ Eu) as X.
      pose proof (sum_upd (fun th => excl d (tpc th)) _ _ (Thread Idle (remove1 a l)) _ H) as Y. fold ths1 in Y. cbn [tpc excl] in X, Y.
      pose proof (i_lock vt s I d x Hd). lia.
    + apply I.
  - (* AGet *)
    rewrite (setpc_ok _ _ _ _ _ H). cbn [bind]. eexists _, _. split; [reflexivity|]. eapply frame_pc; eauto; pcs. cbn. auto.
  - (* ASet *)
    rewrite (setpc_ok _ _ _ _ _ H). cbn [bind]. eexists _, _. split; [reflexivity|]. eapply frame_pc; eauto; pcs. 
  - (* ACtor *)
    destruct Ha as [Hc Hq].
    assert (Ea : q mod 8 =? 0 = true).
    { apply N.eqb_eq. destruct Hq as [->|Hq]; [reflexivity|]. destruct (held_live vt s t _ q I H Hq) as (ob & Hob & _). now destruct (live_facts vt s q ob I Hob). }
    rewrite Ea, assert_true. cbn [bind].
    assert (Hlt : (c < length (cells s))%nat) by (apply nth_error_Some; congruence).
    assert (Others : forall x u thu, u <> t -> nth_error (threads s) u = Some thu -> thread_ok vt (cells s) (tpc thu) (held thu) ->
              thread_ok vt (upd (cells s) c x) (tpc thu) (held thu)).
    { intros x u thu _ Hu. apply unused_ok. eapply none_unused; eauto. }
    assert (Refs : forall x p', cell_refs 0 x = 0%nat -> (forall b, cell_refs b x = 0%nat) -> (forall b, pc_refs b p' = 0%nat) -> (forall b, owner b p' = 0%nat) ->
      forall b, addr_ok vt (hp s b) (handles (State (hp s) (upd (cells s) c x) (upd (threads s) t (Thread p' l)) (fresh s) (deleted s)) b)
        (owners (State (hp s) (upd (cells s) c x) (upd (threads s) t (Thread p' l)) (fresh s) (deleted s)) b) b).
    { intros x p' _ H1 H2 H3. nums H b X Y. pose proof (cells_upd b _ c x _ Hc) as W. rewrite H1 in W. cbn [cell_refs] in W. rewrite H2 in X. rewrite H3 in Y.
      replace n with (handles s b) by lia. replace n0 with (owners s b) by lia. apply I. }
    destruct (N.eqb_spec q 0) as [->|Hn].
    + rewrite (setcell_ok _ _ _ _ Hc). cbn [bind]. eexists _, _. split; [reflexivity|].
      rewrite <- (upd_same (threads s) t _ H) at 1. eapply frame; eauto; [|cbn; auto| |apply I].
      * apply Refs; auto. intros b. cbn. apply refto_0.
      * eapply lock_write; eauto.
    + rewrite (setcell_ok _ _ _ _ Hc). cbn [bind]. rewrite (setpc_ok _ _ (Thread Idle l)) by exact H. cbn [bind hp cells threads fresh deleted].
      eexists _, _. split; [reflexivity|]. eapply frame; eauto; [| |apply I].
      * cbn. split; [now apply nth_error_upd_eq|]. destruct Hq; [congruence|auto].
      * intros d x Hx. pose proof (excl_upd s t _ (Thread (CtAdd c q) l) d H) as X. cbn [tpc excl] in X.
        destruct (Nat.eqb_spec d c) as [->|Hne].
        -- rewrite nth_error_upd_eq in Hx by auto. injection Hx as <-. pose proof (i_lock vt s I c _ Hc) as L. cbn in L |- *. lia.
        -- rewrite nth_error_upd_ne in Hx by auto. pose proof (i_lock vt s I d x Hx). lia.
  - (* ADtor *)
    destruct Ha as [[w Hw] Hu]. rewrite (load_ok _ _ _ Hw). cbn [bind]. rewrite (setcell_ok _ _ _ _ Hw). cbn [bind].
    rewrite (setpc_ok _ _ (Thread Idle l)) by exact H. cbn [bind hp cells threads fresh deleted]. eexists _, _. split; [reflexivity|].
    assert (Z : sum (map (fun th => excl c (tpc th)) (threads s)) = 0%nat).
    { apply sum_all0. intros th Hin. apply In_nth_error in Hin as [u Hin]. apply uses_excl. eauto. }
    assert (Ew : N.even w = true).
    { pose proof (i_lock vt s I c _ Hw) as L. rewrite Z in L. cbn in L. rewrite odd_even in L. destruct (N.even w); [auto|discriminate]. }
    eapply frame; eauto; [| | |apply I].
    + nums H b X Y. pose proof (cells_upd b _ c CNone _ Hw) as W. cbn [cell_refs] in W.
      replace n with (handles s b) by lia. replace n0 with (owners s b) by lia. apply I.
    + intros u thu _ Hthu. apply unused_ok. eauto.
    + intros d x Hx. pose proof (excl_upd s t _ (Thread (DtA w) l) d H) as X. cbn [tpc excl] in X.
      destruct (Nat.eq_dec c d) as [<-|Hne].
      * rewrite nth_error_upd_eq in Hx by (apply nth_error_Some; congruence). injection Hx as <-. cbn. lia.
      * rewrite nth_error_upd_ne in Hx by auto. pose proof (i_lock vt s I d x Hx). lia.
Qed.

Theorem step_ok s e : inv s -> allowed s e -> exists s' o, step vt debug s e = Ok (s', o) /\ inv s'.
Proof.
  intros I A. destruct e as [t a|t]; cbn [step].
  - pose proof A as ([p l] & H & Hp & _). cbn in Hp. subst p. rewrite (slot_get_ok _ _ _ H). cbn [bind held]. now apply start_ok.
  - destruct A as ([p l] & H & Hp). rewrite (slot_get_ok _ _ _ H). cbn [bind held tpc] in *. now apply cont_ok.
Qed.
Lemma inv0 n m : inv (init n m).
Proof.
  assert (T : forall t th, nth_error (repeat (Thread Idle []) n) t = Some th -> th = Thread Idle []) by (intros t th H; apply nth_error_In, repeat_spec in H; auto).
  assert (C : forall c x, nth_error (repeat CNone m) c = Some x -> x = CNone) by (intros c x H; apply nth_error_In, repeat_spec in H; auto).
  split; cbn [init hp cells threads fresh deleted].
  - intros a. cbn. split.
    + unfold handles. cbn [init threads cells]. rewrite !sum_all0; [reflexivity| |]; intros x Hx; apply repeat_spec in Hx; subst; reflexivity.
    + unfold owners. cbn [init threads]. apply sum_all0. intros x Hx; apply repeat_spec in Hx; subst; reflexivity.
  - intros t th H. rewrite (T _ _ H). cbn. auto.
  - intros c x H. rewrite (C _ _ H). cbn [cexcl]. apply sum_all0. intros y Hy; apply repeat_spec in Hy; subst; reflexivity.
  - split; [discriminate|]. split; [|split; [discriminate|constructor]]. intros k. split; [lia|]. intros [[]|(a & ob & X & _)]. discriminate.
Qed.
Lemma run_ok : forall es s, inv s -> legal vt debug s es -> exists s' tr, run vt debug s es = Ok (s', tr) /\ inv s'.
Proof.
  induction es as [|e es IH]; intros s I L; cbn [run]; [eauto|]. inversion L as [|? ? ? A R]; subst.
  destruct (step_ok s e I A) as (s1 & o & E & I1). rewrite E. cbn [bind]. destruct (IH s1 I1 (R _ _ E)) as (s2 & tr & E2 & I2). rewrite E2. cbn [bind]. eauto.
Qed.
Lemma reachable_inv s : reachable vt debug s -> inv s.
Proof. intros (n & m & es & tr & L & R). destruct (run_ok es _ (inv0 n m) L) as (s' & tr' & E & I). congruence. Qed.
Lemma inv_books s : inv s -> books s.
Proof.
  intros I. destruct (i_ser vt s I) as (A & B & C & D). split; [|split; [|repeat split; auto; apply B]].
  - intros a ob H. pose proof (addr_case s a I) as Z. rewrite H in Z. apply Z.
  - intros a H. pose proof (addr_case s a I) as Z. rewrite H in Z. apply Z.
Qed.
End Step.
