(** Proofs for the lock regions of Mutex, both builds. *)
From Verif Require Import Base SyncModel SyncSpec SyncProofs MutexSpec.

Definition bn (b : bool) : nat := if b then 1 else 0.
Section M.
Variable debug : bool.
Variable progs : tid -> list mop.

(** One thread: what it still has to do, what it has done, and whether it holds the lock. *)
Definition gthread (s : mutex) (t : tid) : Prop :=
  exists done, progs t = done ++ mprogs s t /\
  match mpcs s t with
  | MIdle => bracketed (is (held s) t) (mprogs s t) = true /\ calls Lock done = bn (is (held s) t) + calls Unlock done
             /\ (debug = true -> is (owner s) t = is (held s) t)
  | MLockSet => debug = true /\ held s = Some t /\ calls Lock done = calls Unlock done
             /\ is (owner s) t = false /\ exists r, mprogs s t = Lock :: r /\ bracketed true r = true
  | MUnlockRel => debug = true /\ held s = Some t /\ calls Lock done = S (calls Unlock done)
             /\ owner s = None /\ exists r, mprogs s t = Unlock :: r /\ bracketed false r = true
  end.
Definition ginv (s : mutex) : Prop := forall t, gthread s t.
(** Steps left to thread [t]. *)
Definition todo (s : mutex) (t : tid) : nat :=
  2 * length (mprogs s t) - match mpcs s t with MIdle => 0 | _ => 1 end.
(** Only thread [t] moved, and it has less to do. *)
Definition moved (s s' : mutex) (t : tid) : Prop :=
  todo s' t < todo s t /\ forall u, u <> t -> todo s' u = todo s u.
Definition blocked (s : mutex) (t : tid) : Prop :=
  mpcs s t = MIdle /\ (mprogs s t = [] \/ (exists r, mprogs s t = Lock :: r) /\ exists h, held s = Some h /\ h <> t).

Lemma calls_snoc o l x : calls o (l ++ [x]) = calls o l + bn (mop_eqb o x).
Proof. unfold calls. rewrite filter_app, app_length. cbn. destruct (mop_eqb o x); reflexivity. Qed.

Lemma ginit : (forall t, bracketed false (progs t) = true) -> ginv (minit progs).
Proof. intros H t. exists []. cbn. repeat split; auto. Qed.

Lemma others h (s : mutex) u : held s = Some h -> u <> h -> gthread s u ->
  mpcs s u = MIdle /\ exists done, progs u = done ++ mprogs s u /\ bracketed false (mprogs s u) = true /\ calls Lock done = calls Unlock done
  /\ (debug = true -> is (owner s) u = false).
Proof.
  intros Hh Hu (done & Hd & H). rewrite Hh, (is_other h u) in H by congruence. destruct (mpcs s u).
  - split; auto. exists done. cbn in H. tauto.
  - destruct H as (_ & H & _). congruence.
  - destruct H as (_ & H & _). congruence.
Qed.

Lemma gstep s t : ginv s -> exists s', mstep debug s t = Ok s' /\ ginv s' /\
  (blocked s t /\ s' = s \/ ~ blocked s t /\ moved s s' t).
Proof.
  intros Hi. destruct (Hi t) as (done & Hd & Ht). unfold mstep.
  destruct (mpcs s t) eqn:Ep.
  - destruct Ht as (Hb & Hc & Ho). destruct (mprogs s t) as [|k r] eqn:Eg.
    { exists s. split; auto. split; auto. left. split; auto. split; auto. }
    destruct k; cbn [bracketed] in Hb; try discriminate.
    + (* Lock *)
      apply andb_true_iff in Hb as [Hh Hb]. apply negb_true_iff in Hh. rewrite Hh in *.
      destruct (held s) as [h|] eqn:Eh.
      { exists s. split; auto. split; auto. left. split; auto. split; auto. right. split; [eauto|]. exists h. split; auto.
        intros ->. rewrite is_self in Hh. discriminate. }
      assert (Hoth : forall u, u <> t -> gthread (Mutex (Some t) (owner s) (mpcs s) (mprogs s)) u).
      { intros u Hu. destruct (Hi u) as (dn & Hdn & Hx). exists dn. split; auto. cbn [mpcs mprogs held owner]. rewrite Eh in Hx.
        destruct (mpcs s u); [|destruct Hx as (_ & ? & _); discriminate|destruct Hx as (_ & ? & _); discriminate].
        rewrite (is_other t u) by congruence. exact Hx. }
      destruct debug eqn:Edb.
      * eexists. split; [reflexivity|]. split.
        -- intros u. destruct (Nat.eq_dec u t) as [->|Hu].
           ++ exists done. cbn. rewrite at_eq, Eg. split; auto. split; auto. split; auto. split; [exact Hc|]. split; [now apply Ho|]. eauto.
           ++ specialize (Hoth u Hu). unfold gthread in Hoth |- *. cbn in Hoth |- *. rewrite at_ne by auto. exact Hoth.
        -- right. split.
           ++ intros (_ & [Q|(_ & h & Q & _)]); congruence.
           ++ split; [|intros u Hu]; unfold todo; cbn; rewrite ?at_eq, ?Eg, ?Ep, ?at_ne by auto; cbn; lia.
      * eexists. split; [reflexivity|]. split.
        -- intros u. destruct (Nat.eq_dec u t) as [->|Hu].
           ++ exists (done ++ [Lock]). cbn. rewrite !at_eq, Eg, Nat.eqb_refl. cbn [tl]. split; [rewrite <- app_assoc; exact Hd|].
              rewrite !calls_snoc. cbn. repeat split; auto; try (cbn in Hc; lia); intros; congruence.
           ++ specialize (Hoth u Hu). unfold gthread in Hoth |- *. cbn in Hoth |- *. rewrite !at_ne by auto. exact Hoth.
        -- right. split.
           ++ intros (_ & [Q|(_ & h & Q & _)]); congruence.
           ++ split; [|intros u Hu]; unfold todo; cbn; rewrite ?at_eq, ?Eg, ?Ep, ?at_ne by auto; cbn; lia.
    + (* Unlock *)
      apply andb_true_iff in Hb as [Hh Hb]. rewrite Hh in *. apply is_some in Hh.
      assert (Hoth : forall u, u <> t -> mpcs s u = MIdle /\ exists dn, progs u = dn ++ mprogs s u /\ bracketed false (mprogs s u) = true /\ calls Lock dn = calls Unlock dn
          /\ (debug = true -> is (owner s) u = false)).
      { intros u Hu. apply (others t); auto. }
      destruct debug eqn:Edb.
      * eexists. split; [reflexivity|]. split.
        -- intros u. destruct (Nat.eq_dec u t) as [->|Hu].
           ++ exists done. cbn. rewrite at_eq, Eg. split; auto. split; auto. split; auto. split; [exact Hc|]. split; auto. eauto.
           ++ destruct (Hoth u Hu) as (Eu & dn & H1 & H2 & H3 & H4). exists dn. cbn. rewrite at_ne, Eu by auto. split; auto.
              rewrite Hh, (is_other t u) by congruence. cbn. auto.
        -- right. split.
           ++ intros (_ & [Q|((r' & Q) & _)]); congruence.
           ++ split; [|intros u Hu]; unfold todo; cbn; rewrite ?at_eq, ?Eg, ?Ep, ?at_ne by auto; cbn; lia.
      * eexists. split; [reflexivity|]. split.
        -- intros u. destruct (Nat.eq_dec u t) as [->|Hu].
           ++ exists (done ++ [Unlock]). cbn. rewrite !at_eq, Eg. cbn [tl]. split; [rewrite <- app_assoc; exact Hd|].
              rewrite !calls_snoc. cbn in *. repeat split; auto; try (cbn in Hc; lia); intros; congruence.
           ++ destruct (Hoth u Hu) as (Eu & dn & H1 & H2 & H3 & H4). exists dn. cbn. rewrite !at_ne, Eu by auto. split; auto. cbn. split; auto. split; auto. intros; congruence.
        -- right. split.
           ++ intros (_ & [Q|((r' & Q) & _)]); congruence.
           ++ split; [|intros u Hu]; unfold todo; cbn; rewrite ?at_eq, ?Eg, ?Ep, ?at_ne by auto; cbn; lia.
    + (* AssertOwns *)
      apply andb_true_iff in Hb as [Hh Hb].
      assert (Ea : assert_ debug (is (owner s) t) = Ok tt).
      { unfold assert_. destruct debug; auto. rewrite Ho, Hh by auto. reflexivity. }
      rewrite Ea. cbn [bind]. eexists. split; [reflexivity|]. split.
      * intros u. destruct (Nat.eq_dec u t) as [->|Hu].
        -- exists (done ++ [AssertOwns]). cbn. rewrite !at_eq, Eg. cbn [tl]. split; [rewrite <- app_assoc; exact Hd|].
           rewrite !calls_snoc. cbn. repeat split; auto; lia.
        -- specialize (Hi u). unfold gthread in Hi |- *. cbn in Hi |- *. rewrite !at_ne by auto. exact Hi.
      * right. split.
        -- intros (_ & [Q|((r' & Q) & _)]); congruence.
        -- split; [|intros u Hu]; unfold todo; cbn; rewrite ?at_eq, ?Eg, ?Ep, ?at_ne by auto; cbn; lia.
  - destruct Ht as (Hdb & Hh & Hc & Ho & r & Eg & Hb). eexists. split; [reflexivity|]. split.
    + intros u. destruct (Nat.eq_dec u t) as [->|Hu].
      * exists (done ++ [Lock]). cbn [mpcs mprogs held owner mnext]. rewrite !at_eq, Eg, Hh, !is_self. cbn [tl]. rewrite Eg in Hd. split; [rewrite <- app_assoc; exact Hd|].
        rewrite !calls_snoc. cbn. repeat split; auto; lia.
      * destruct (others t s u Hh Hu (Hi u)) as (Eu & dn & H1 & H2 & H3 & H4). exists dn. cbn [mpcs mprogs held owner mnext]. rewrite !at_ne, Eu by auto. split; auto.
        rewrite Hh, (is_other t u) by congruence. cbn. auto.
    + right. split.
      * intros (Q & _). congruence.
      * split; [|intros u Hu]; unfold todo; cbn; rewrite ?at_eq, ?Eg, ?Ep, ?at_ne by auto; cbn; lia.
  - destruct Ht as (Hdb & Hh & Hc & Ho & r & Eg & Hb). rewrite Hh, is_self. eexists. split; [reflexivity|]. split.
    + intros u. destruct (Nat.eq_dec u t) as [->|Hu].
      * exists (done ++ [Unlock]). cbn [mpcs mprogs held owner mnext]. rewrite !at_eq, Eg, Ho, !is_none. cbn [tl]. rewrite Eg in Hd. split; [rewrite <- app_assoc; exact Hd|].
        rewrite !calls_snoc. cbn. repeat split; auto; lia.
      * destruct (others t s u Hh Hu (Hi u)) as (Eu & dn & H1 & H2 & H3 & H4). exists dn. cbn [mpcs mprogs held owner mnext]. rewrite !at_ne, Eu by auto. split; auto.
    + right. split.
      * intros (Q & _). congruence.
      * split; [|intros u Hu]; unfold todo; cbn; rewrite ?at_eq, ?Eg, ?Ep, ?at_ne by auto; cbn; lia.
Qed.

Lemma grun sched : forall s, ginv s -> exists s', mrun debug s sched = Ok s' /\ ginv s'.
Proof.
  induction sched as [|t l IH]; intros s Hi; cbn [mrun].
  - eauto.
  - destruct (gstep s t Hi) as (s1 & E & Hi1 & _). rewrite E. cbn [bind]. auto.
Qed.
Lemma inside_holds s t : ginv s -> inside (progs t) s t -> held s = Some t.
Proof.
  intros Hi (dn & Hdn & Hc). destruct (Hi t) as (done & Hd & Ht).
  assert (dn = done) by (rewrite Hd in Hdn; now apply app_inv_tail in Hdn). subst dn.
  destruct (mpcs s t).
  - destruct Ht as (_ & Hc' & _). apply is_some. destruct (is (held s) t); auto. cbn in Hc'. lia.
  - tauto.
  - tauto.
Qed.
(** Somebody can move unless everybody is done. *)
Lemma someone s t : ginv s -> mprogs s t <> [] -> exists u, ~ blocked s u.
Proof.
  intros Hi Hw. destruct (held s) as [h|] eqn:Eh.
  - exists h. intros (Ep & Hb). destruct (Hi h) as (done & Hd & Ht). rewrite Ep, Eh, is_self in Ht. destruct Ht as (Hb2 & _).
    destruct Hb as [E|((r & E) & _)]; rewrite E in Hb2; discriminate.
  - exists t. intros (Ep & [E|(_ & h & E & _)]); congruence.
Qed.
End M.

(** Running until everybody is done. *)
Section Finish.
Variable debug : bool.
Variable progs : tid -> list mop.
Fixpoint total (s : mutex) (n : nat) : nat := match n with O => 0 | S n => todo s n + total s n end.
Lemma total_eq s s' n : (forall u, u < n -> todo s' u = todo s u) -> total s' n = total s n.
Proof. induction n as [|n IH]; intros H; cbn [total]; auto. rewrite (H n), IH; auto. Qed.
Lemma total_less s s' t n : moved s s' t -> t < n -> total s' n < total s n.
Proof.
  intros [H1 H2]. induction n as [|n IH]; intros Ht; cbn [total]; [lia|]. destruct (Nat.eq_dec t n) as [->|Hne].
  - rewrite (total_eq s s' n); [lia|]. intros u Hu. apply H2. lia.
  - rewrite (H2 n) by auto. assert (t < n) by lia. specialize (IH H). lia.
Qed.
Lemma todo_zero debug' s t : ginv debug' progs s -> todo s t = 0 -> mprogs s t = [].
Proof.
  intros Hi H. destruct (Hi t) as (dn & _ & Ht). unfold todo in H. destruct (mpcs s t).
  - destruct (mprogs s t); auto. cbn in H. lia.
  - destruct Ht as (_ & _ & _ & _ & r & E & _). rewrite E in H. cbn in H. lia.
  - destruct Ht as (_ & _ & _ & _ & r & E & _). rewrite E in H. cbn in H. lia.
Qed.
Lemma finish n m : forall s, ginv debug progs s -> (forall t, n <= t -> mprogs s t = []) -> total s n <= m ->
  exists sched s', mrun debug s sched = Ok s' /\ finished s'.
Proof.
  induction m as [|m IH]; intros s Hi Hn Hm.
  - exists [], s. split; [reflexivity|]. intros t. destruct (Nat.lt_ge_cases t n) as [L|L]; [|auto].
    apply (todo_zero debug s t Hi). clear -L Hm. induction n as [|n IHn]; cbn [total] in Hm; [lia|].
    destruct (Nat.eq_dec t n) as [->|]; [lia|]. apply IHn; lia.
  - assert (Hdec : (forall t, t < n -> mprogs s t = []) \/ exists t, mprogs s t <> []).
    { clear. induction n as [|n IHn]; [left; intros; lia|]. destruct IHn as [H|H]; [|auto]. destruct (mprogs s n) eqn:E.
      - left. intros t Ht. destruct (Nat.eq_dec t n) as [->|]; auto. apply H. lia.
      - right. exists n. congruence. }
    destruct Hdec as [H|(t & Ht)].
    { exists [], s. split; [reflexivity|]. intros t. destruct (Nat.lt_ge_cases t n); auto. }
    destruct (someone debug progs s t Hi Ht) as (u & Hu).
    destruct (gstep debug progs s u Hi) as (s1 & E & Hi1 & [(Hb & _)|(_ & Hmv)]); [contradiction|].
    assert (Hun : u < n).
    { destruct (Nat.lt_ge_cases u n) as [L|L]; auto. destruct Hmv as [Hlt _].
      assert (Hz : todo s u = 0) by (unfold todo; rewrite (Hn u L); reflexivity). lia. }
    destruct (IH s1 Hi1) as (sched & s' & R & Hf).
    + intros v Hv. destruct Hmv as [_ Hk]. apply (todo_zero debug s1 v Hi1). rewrite Hk by lia.
      unfold todo. rewrite (Hn v Hv). reflexivity.
    + assert (Q := total_less s s1 u n Hmv Hun). lia.
    + exists (u :: sched), s'. split; [|exact Hf]. cbn [mrun]. rewrite E. exact R.
Qed.
End Finish.
