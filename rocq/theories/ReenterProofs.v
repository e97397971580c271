(** Invariants of the observed machine. *)
From Verif Require Import Base ReenterModel ReenterSpec.

(** ** Indexed sums *)
Fixpoint isum {A} (f : nat -> A -> nat) (k : nat) (l : list A) : nat :=
  match l with [] => 0 | a :: r => f k a + isum f (S k) r end.
Lemma isum_one {A} (f g : nat -> A -> nat) l : forall k i y, nth_error l i = Some y ->
  (forall j a, j <> i -> nth_error l j = Some a -> f (k + j) a = g (k + j) a) ->
  isum f k l + g (k + i) y = isum g k l + f (k + i) y.
Proof.
  induction l as [|a l IH]; intros k i y H E; [destruct i; discriminate|]. destruct i as [|i]; cbn [nth_error isum] in *.
  - injection H as ->. rewrite Nat.add_0_r. enough (isum f (S k) l = isum g (S k) l) by lia.
    clear IH. assert (E' : forall j b, nth_error l j = Some b -> f (S k + j) b = g (S k + j) b).
    { intros j b Hj. specialize (E (S j) b (Nat.neq_succ_0 j) Hj). now rewrite Nat.add_succ_r in E. }
    clear E. revert E'. generalize (S k). induction l as [|b l IH]; intros k' E'; cbn [isum]; [reflexivity|].
    rewrite (IH (S k')).
    + pose proof (E' 0 b eq_refl) as X. rewrite Nat.add_0_r in X. now rewrite X.
    + intros j d Hj. pose proof (E' (S j) d Hj) as X. now rewrite Nat.add_succ_r in X.
  - specialize (IH (S k) i y H). rewrite Nat.add_succ_r.
    assert (X : f k a = g k a) by (pose proof (E 0 a (Nat.neq_0_succ i) eq_refl) as X; now rewrite Nat.add_0_r in X).
    rewrite X. cbn [Nat.add] in IH. enough (isum f (S k) l + g (S (k + i)) y = isum g (S k) l + f (S (k + i)) y) by lia.
    apply IH. intros j b Hj Hb. specialize (E (S j) b). rewrite Nat.add_succ_r in E. apply E; [lia|exact Hb].
Qed.
Lemma isum_ext {A} (f g : nat -> A -> nat) l : forall k,
  (forall i a, nth_error l i = Some a -> f (k + i) a = g (k + i) a) -> isum f k l = isum g k l.
Proof.
  induction l as [|a l IH]; intros k E; cbn [isum]; [reflexivity|]. rewrite (IH (S k)).
  - pose proof (E 0 a eq_refl) as X. rewrite Nat.add_0_r in X. now rewrite X.
  - intros i b H. specialize (E (S i) b H). now rewrite Nat.add_succ_r in E.
Qed.
Lemma isum_upd {A} (f : nat -> A -> nat) l x : forall k i y, nth_error l i = Some y ->
  isum f k (upd l i x) + f (k + i) y = isum f k l + f (k + i) x.
Proof.
  induction l as [|a l IH]; intros k i y H; [destruct i; discriminate|]. destruct i as [|i]; cbn [nth_error isum upd] in *.
  - injection H as ->. rewrite Nat.add_0_r. lia.
  - specialize (IH (S k) i y H). rewrite Nat.add_succ_r. cbn [Nat.add] in IH. lia.
Qed.
Lemma isum_app {A} (f : nat -> A -> nat) l m : forall k, isum f k (l ++ m) = isum f k l + isum f (k + length l) m.
Proof.
  induction l as [|a l IH]; intros k; cbn [app isum length]; [now rewrite Nat.add_0_r|]. rewrite IH. replace (S k + length l) with (k + S (length l)) by lia. lia.
Qed.
Lemma isum_const {A} (g : A -> nat) l : forall k, isum (fun _ a => g a) k l = sum (map g l).
Proof. induction l as [|a l IH]; intros k; cbn; [reflexivity|]. rewrite IH. reflexivity. Qed.
Lemma isum_ge {A} (f : nat -> A -> nat) l : forall k i y, nth_error l i = Some y -> f (k + i) y <= isum f k l.
Proof.
  induction l as [|a l IH]; intros k i y H; [destruct i; discriminate|]. destruct i as [|i]; cbn [nth_error isum] in *.
  - injection H as ->. rewrite Nat.add_0_r. lia.
  - specialize (IH (S k) i y H). rewrite Nat.add_succ_r. cbn [Nat.add] in IH. lia.
Qed.
Lemma sum_map_rev {A} (f : A -> nat) l : sum (map f (rev l)) = sum (map f l).
Proof.
  assert (Happ : forall a b, sum (map f (a ++ b)) = sum (map f a) + sum (map f b)).
  { induction a as [|c a IHa]; intros b; cbn [app map sum fold_right]; [reflexivity|]. fold (sum (map f (a ++ b))) (sum (map f a)). rewrite IHa. lia. }
  induction l as [|a l IH]; cbn [rev]; [reflexivity|]. rewrite Happ, IH. cbn [map sum fold_right]. fold (sum (map f l)). lia.
Qed.

(** ** References that are not in the middle of being assigned *)
Lemma loc_eqb_spec a b : reflect (a = b) (loc_eqb a b).
Proof.
  destruct a as [i|y i], b as [j|z j]; cbn; try (constructor; discriminate).
  - destruct (Nat.eqb_spec i j); constructor; congruence.
  - destruct (Nat.eqb_spec y z), (Nat.eqb_spec i j); cbn; constructor; congruence.
Qed.
Definition addB (l : loc) (B : loc -> bool) : loc -> bool := fun x => loc_eqb x l || B x.
Lemma addB_same l B : addB l B l = true.
Proof. unfold addB. destruct (loc_eqb_spec l l); [reflexivity|congruence]. Qed.
Lemma addB_ne l B x : x <> l -> addB l B x = B x.
Proof. intros H. unfold addB. destruct (loc_eqb_spec x l); [congruence|reflexivity]. Qed.

Definition slot_refs (B : loc -> bool) (x : nat) (l : loc) (p : option nat) : nat := if B l then 0 else points x p.
Definition grefs (B : loc -> bool) (x : nat) (gs : list (option nat)) : nat := isum (fun i p => slot_refs B x (LG i) p) 0 gs.
Definition orefs (B : loc -> bool) (x : nat) (i : nat) (ob : obj) : nat :=
  match st ob with Alive | Dying => isum (fun j p => slot_refs B x (LM i j) p) 0 (mem ob) | _ => 0 end.
Definition mrefs (B : loc -> bool) (x : nat) (os : list obj) : nat := isum (orefs B x) 0 os.
Definition refs (B : loc -> bool) (s : world) (x : nat) : nat := grefs B x (globs s) + mrefs B x (objs s).

Lemma slot_get_inv {A} (l : list A) i x : slot_get l i = Ok x -> nth_error l i = Some x.
Proof. unfold slot_get. destruct (nth_error l i); congruence. Qed.

Lemma slot_free B x l p : B l = false -> slot_refs B x l p = points x p.
Proof. intros H. unfold slot_refs. now rewrite H. Qed.
Lemma slot_busy B x l p : B l = true -> slot_refs B x l p = 0.
Proof. intros H. unfold slot_refs. now rewrite H. Qed.
Lemma refs_busy B s l p x : read s l = Ok p -> B l = false -> refs B s x = refs (addB l B) s x + points x p.
Proof.
  intros R Bl. destruct l as [v|o j]; cbn [read] in R; unfold refs.
  - apply slot_get_inv in R.
    assert (M : mrefs B x (objs s) = mrefs (addB (LG v) B) x (objs s)).
    { unfold mrefs. apply isum_ext. intros i ob _. unfold orefs. destruct (st ob); try reflexivity; apply isum_ext; intros k q _; unfold slot_refs; rewrite addB_ne by discriminate; reflexivity. }
    rewrite M. unfold grefs.
    pose proof (isum_one (fun i p => slot_refs B x (LG i) p) (fun i p => slot_refs (addB (LG v) B) x (LG i) p) (globs s) 0 v p R) as X.
    cbn [Nat.add] in X. rewrite (slot_free B _ (LG v)), (slot_busy (addB (LG v) B) _ (LG v)) in X by (auto using addB_same).
    rewrite Nat.add_0_r in X. rewrite X; [lia|]. intros k q Hk _. unfold slot_refs. rewrite addB_ne by congruence. reflexivity.
  - destruct (slot_get (objs s) o) as [ob| |] eqn:Eo; cbn [bind] in R; try discriminate. apply slot_get_inv in Eo.
    assert (G : grefs B x (globs s) = grefs (addB (LM o j) B) x (globs s)).
    { unfold grefs. apply isum_ext. intros i q _. unfold slot_refs. rewrite addB_ne by discriminate. reflexivity. }
    rewrite G.
    assert (Ho : orefs B x o ob = orefs (addB (LM o j) B) x o ob + points x p).
    { unfold orefs. assert (R' : nth_error (mem ob) j = Some p /\ (st ob = Alive \/ st ob = Dying)).
      { destruct (st ob); try discriminate; split; auto; now apply slot_get_inv. }
      destruct R' as [R' S].
      pose proof (isum_one (fun i p => slot_refs B x (LM o i) p) (fun i p => slot_refs (addB (LM o j) B) x (LM o i) p) (mem ob) 0 j p R') as X.
      cbn [Nat.add] in X. rewrite (slot_free B _ (LM o j)), (slot_busy (addB (LM o j) B) _ (LM o j)) in X by (auto using addB_same). rewrite Nat.add_0_r in X.
      assert (X' := X ltac:(intros k q Hk _; unfold slot_refs; rewrite addB_ne by congruence; reflexivity)).
      destruct S as [-> | ->]; exact X'. }
    unfold mrefs.
    pose proof (isum_one (orefs B x) (orefs (addB (LM o j) B) x) (objs s) 0 o ob Eo) as X. cbn [Nat.add] in X. rewrite Ho in X.
    assert (X' := X ltac:(intros k b Hk _; unfold orefs; destruct (st b); try reflexivity; apply isum_ext; intros; unfold slot_refs; rewrite addB_ne by congruence; reflexivity)).
    lia.
Qed.

Lemma refs_set B s o ob ob' x : nth_error (objs s) o = Some ob ->
  refs B (set_obj s o ob') x + orefs B x o ob = refs B s x + orefs B x o ob'.
Proof.
  intros H. unfold refs, set_obj, mrefs. cbn [objs globs].
  pose proof (isum_upd (orefs B x) (objs s) ob' 0 o ob H) as X. cbn [Nat.add] in X. lia.
Qed.
Lemma refs_set_same B s o ob r x : nth_error (objs s) o = Some ob ->
  refs B (set_obj s o (Obj r (st ob) (cls ob) (mem ob))) x = refs B s x.
Proof. intros H. pose proof (refs_set B s o ob (Obj r (st ob) (cls ob) (mem ob)) x H) as X. unfold orefs in X. cbn [st mem] in X. lia. Qed.
Lemma set_nth s o ob i : o < length (objs s) ->
  nth_error (objs (set_obj s o ob)) i = if o =? i then Some ob else nth_error (objs s) i.
Proof.
  intros H. cbn. rewrite nth_error_upd. destruct (Nat.eqb_spec o i); cbn [andb]; [|reflexivity].
  destruct (Nat.ltb_spec o (length (objs s))); [reflexivity|lia].
Qed.
Lemma nth_lt {A} (l : list A) i x : nth_error l i = Some x -> i < length l.
Proof. intros H. apply nth_error_Some. congruence. Qed.

Lemma set_get s o ob i : o < length (objs s) -> slot_get (objs (set_obj s o ob)) i = if o =? i then Ok ob else slot_get (objs s) i.
Proof. intros H. unfold slot_get. rewrite set_nth by exact H. now destruct (o =? i). Qed.

Section P.
Variables ng nm : nat.

(** [T o]: references to [o] that somebody will give back; [D]: objects being destroyed; [nb]: not yet referenced. *)
Record inv (s : world) (T : nat -> nat) (D : list (nat * ostate)) (nb : list nat) : Prop := {
  i_rc : forall o ob, nth_error (objs s) o = Some ob -> st ob = Alive -> rc ob = T o;
  i_tgt : forall o, 0 < T o -> exists ob, nth_error (objs s) o = Some ob /\ st ob = Alive;
  i_nb : forall o, In o nb <-> exists ob, nth_error (objs s) o = Some ob /\ st ob = Alive /\ rc ob = 0;
  i_nbnd : NoDup nb;
  i_dy : forall o z, z = Dying \/ z = Ending -> (In (o, z) D <-> exists ob, nth_error (objs s) o = Some ob /\ st ob = z);
  i_dead : forall o, In o (log s) <-> exists ob, nth_error (objs s) o = Some ob /\ st ob = Dead;
  i_nd : NoDup (log s);
  i_ng : length (globs s) = ng;
  i_nm : forall o ob, nth_error (objs s) o = Some ob -> st ob = Alive \/ st ob = Dying -> length (mem ob) = nm }.

Lemma inv_ext s T T' D nb : (forall o, T o = T' o) -> inv s T D nb -> inv s T' D nb.
Proof. intros E []. split; auto; intros; rewrite <- ?E in *; eauto. Qed.

(** A RefPtr that exists. *)
Definition vloc (s : world) (l : loc) : Prop :=
  match l with LG v => v < ng | LM o j => j < nm /\ exists ob, nth_error (objs s) o = Some ob /\ (st ob = Alive \/ st ob = Dying) end.
(** ... and will go on existing. *)
Definition sloc (E : nat -> nat) (D : list (nat * ostate)) (l : loc) : Prop :=
  match l with LG v => v < ng | LM o j => j < nm /\ (In (o, Dying) D \/ 0 < E o) end.
Lemma sloc_vloc s T E D nb l : inv s T D nb -> (forall o, E o <= T o) -> sloc E D l -> vloc s l.
Proof.
  intros H LE. destruct l as [v|o j]; cbn; [auto|]. intros [Hj [Hd|He]]; split; auto.
  - apply (i_dy _ _ _ _ H o Dying (or_introl eq_refl)) in Hd. destruct Hd as (ob & X & Y). exists ob. auto.
  - destruct (i_tgt _ _ _ _ H o) as (ob & X & Y); [specialize (LE o); lia|]. exists ob. auto.
Qed.
Lemma read_ok s T D nb l : inv s T D nb -> vloc s l -> exists p, read s l = Ok p.
Proof.
  intros H. destruct l as [v|o j]; cbn.
  - rewrite <- (i_ng _ _ _ _ H). intros V. destruct (nth_error (globs s) v) as [p|] eqn:E; [exists p; now apply slot_get_ok|].
    apply nth_error_None in E. lia.
  - intros (Hj & ob & Ho & S). rewrite (slot_get_ok _ _ _ Ho). cbn [bind].
    rewrite <- (i_nm _ _ _ _ H o ob Ho S) in Hj. destruct (nth_error (mem ob) j) as [p|] eqn:E; [|apply nth_error_None in E; lia].
    exists p. destruct S as [-> | ->]; now apply slot_get_ok.
Qed.
Lemma read_vloc s T D nb l p : inv s T D nb -> read s l = Ok p -> vloc s l.
Proof.
  intros H R. destruct l as [v|o j]; cbn in *.
  - rewrite <- (i_ng _ _ _ _ H). eapply nth_lt, slot_get_inv, R.
  - destruct (slot_get (objs s) o) as [ob| |] eqn:Eo; cbn [bind] in R; try discriminate. apply slot_get_inv in Eo.
    assert (S : st ob = Alive \/ st ob = Dying) by (destruct (st ob); try discriminate; auto).
    split; [|eauto]. rewrite <- (i_nm _ _ _ _ H o ob Eo S). destruct S as [S|S]; rewrite S in R; eapply nth_lt, slot_get_inv, R.
Qed.
Lemma write_ok s T D nb l q : inv s T D nb -> vloc s l ->
  exists s', write s l q = Ok s' /\ inv s' T D nb /\ read s' l = Ok q /\
    (forall m, m <> l -> read s' m = read s m) /\
    (forall B x, B l = true -> refs B s' x = refs B s x).
Proof.
  intros H. destruct l as [v|o j]; cbn [vloc write].
  - intros V. rewrite <- (i_ng _ _ _ _ H) in V. rewrite slot_set_ok by exact V. cbn [bind]. eexists. split; [reflexivity|]. split; [|split; [|split]].
    + destruct H. split; auto. cbn [globs]. now rewrite upd_length.
    + cbn. apply slot_get_ok. now apply nth_error_upd_eq.
    + intros [w|o k] Hm; cbn; [|reflexivity]. unfold slot_get. rewrite nth_error_upd_ne by congruence. reflexivity.
    + intros B x Bl. unfold refs. cbn [globs objs]. f_equal. unfold grefs.
      destruct (nth_error (globs s) v) as [p|] eqn:E; [|apply nth_error_None in E; lia].
      pose proof (isum_upd (fun i p => slot_refs B x (LG i) p) (globs s) q 0 v p E) as X. cbn [Nat.add] in X. rewrite !(slot_busy B _ (LG v)) in X by exact Bl. lia.
  - intros (Hj & ob & Ho & S). rewrite (slot_get_ok _ _ _ Ho). cbn [bind]. pose proof (i_nm _ _ _ _ H o ob Ho S) as L.
    assert (Hj' : j < length (mem ob)) by lia. rewrite slot_set_ok by exact Hj'. cbn [bind].
    set (ob' := Obj (rc ob) (st ob) (cls ob) (upd (mem ob) j q)).
    assert (Hlt := nth_lt _ _ _ Ho).
    exists (set_obj s o ob'). split; [destruct S as [-> | ->]; reflexivity|].
    assert (Hn : forall i, nth_error (objs (set_obj s o ob')) i = if o =? i then Some ob' else nth_error (objs s) i) by (intros; now apply set_nth).
    assert (Hex : forall i (P : obj -> Prop), (forall b m, P b <-> P (Obj (rc b) (st b) (cls b) m)) ->
      ((exists b, nth_error (objs (set_obj s o ob')) i = Some b /\ P b) <-> (exists b, nth_error (objs s) i = Some b /\ P b))).
    { intros i P HP. rewrite Hn. destruct (Nat.eqb_spec o i) as [<-|]; [|tauto]. split; intros (b & Hb & Pb).
      - injection Hb as <-. exists ob. split; [exact Ho|]. now apply HP in Pb.
      - exists ob'. split; [reflexivity|]. apply HP. rewrite Ho in Hb. injection Hb as <-. exact Pb. }
    split; [|split; [|split]].
    + split.
      * intros i b Hi A. rewrite Hn in Hi. destruct (Nat.eqb_spec o i) as [<-|]; [injection Hi as <-; exact (i_rc _ _ _ _ H o ob Ho A)|].
        exact (i_rc _ _ _ _ H i b Hi A).
      * intros i Hi. apply (Hex i (fun b => st b = Alive)); [reflexivity|]. exact (i_tgt _ _ _ _ H i Hi).
      * intros i. rewrite (i_nb _ _ _ _ H i). symmetry. apply (Hex i (fun b => st b = Alive /\ rc b = 0)). reflexivity.
      * exact (i_nbnd _ _ _ _ H).
      * intros i z Hz. rewrite (i_dy _ _ _ _ H i z Hz). symmetry. apply (Hex i (fun b => st b = z)). reflexivity.
      * intros i. cbn [set_obj log]. rewrite (i_dead _ _ _ _ H i). symmetry. apply (Hex i (fun b => st b = Dead)). reflexivity.
      * exact (i_nd _ _ _ _ H).
      * exact (i_ng _ _ _ _ H).
      * intros i b Hi A. rewrite Hn in Hi. destruct (Nat.eqb_spec o i) as [<-|]; [injection Hi as <-; cbn; now rewrite upd_length|].
        exact (i_nm _ _ _ _ H i b Hi A).
    + cbn [read]. rewrite (slot_get_ok _ _ ob') by (rewrite Hn, Nat.eqb_refl; reflexivity). cbn [bind].
      cbn [ob' st mem]. destruct S as [-> | ->]; apply slot_get_ok; now apply nth_error_upd_eq.
    + intros [w|y k] Hm; cbn [read]; [reflexivity|]. rewrite set_get by exact Hlt. destruct (Nat.eqb_spec o y) as [<-|]; [|reflexivity].
      rewrite (slot_get_ok _ _ _ Ho). cbn [bind ob' st mem]. assert (k <> j) by congruence.
      destruct (st ob); try reflexivity; unfold slot_get; rewrite nth_error_upd_ne by auto; reflexivity.
    + intros B x Bl. pose proof (refs_set B s o ob ob' x Ho) as X.
      enough (orefs B x o ob = orefs B x o ob') by lia. unfold orefs. cbn [ob' st mem].
      destruct (nth_error (mem ob) j) as [p|] eqn:E; [|apply nth_error_None in E; lia].
      pose proof (isum_upd (fun i p => slot_refs B x (LM o i) p) (mem ob) q 0 j p E) as Y. cbn [Nat.add] in Y. rewrite !(slot_busy B _ (LM o j)) in Y by exact Bl. destruct (st ob); lia.
Qed.
Lemma refs_points B s x l p : read s l = Ok p -> B l = false -> points x p <= refs B s x.
Proof. intros R Bl. rewrite (refs_busy B s l p x R Bl). lia. Qed.
Lemma points_refl o : points o (Some o) = 1.
Proof. cbn. now rewrite Nat.eqb_refl. Qed.
Lemma points_ne o q : o <> q -> points o (Some q) = 0.
Proof. intros H. cbn. destruct (Nat.eqb_spec o q); congruence. Qed.

Lemma read_set_same s o ob r : nth_error (objs s) o = Some ob ->
  forall l, read (set_obj s o (Obj r (st ob) (cls ob) (mem ob))) l = read s l.
Proof.
  intros Ho [v|y j]; cbn [read]; [reflexivity|]. rewrite set_get by (eapply nth_lt; eauto).
  destruct (Nat.eqb_spec o y) as [<-|]; [|reflexivity]. rewrite (slot_get_ok _ _ _ Ho). reflexivity.
Qed.

Lemma add_ref_ok s T D nb q : inv s T D nb -> (forall o, q = Some o -> 0 < T o) ->
  exists s', add_ref s q = Ok s' /\ inv s' (fun x => T x + points x q) D nb /\
    (forall B x, refs B s' x = refs B s x) /\ (forall l, read s' l = read s l).
Proof.
  intros H Hq. destruct q as [o|]; cbn [add_ref].
  2:{ exists s. split; [reflexivity|]. split; [|auto]. eapply inv_ext; [|exact H]. intros x. cbn. lia. }
  destruct (i_tgt _ _ _ _ H o (Hq o eq_refl)) as (ob & Ho & A). rewrite (slot_get_ok _ _ _ Ho). cbn [bind].
  assert (Hlt := nth_lt _ _ _ Ho). pose proof (i_rc _ _ _ _ H o ob Ho A) as Hr. specialize (Hq o eq_refl).
  set (ob' := Obj (S (rc ob)) (st ob) (cls ob) (mem ob)).
  exists (set_obj s o ob'). split; [rewrite A; unfold ob'; rewrite A; reflexivity|].
  assert (Hn : forall i, nth_error (objs (set_obj s o ob')) i = if o =? i then Some ob' else nth_error (objs s) i) by (intros; now apply set_nth).
  split; [|split; [intros; now apply refs_set_same|intros; now apply read_set_same]].
  split.
  - intros i b Hi Ab. rewrite Hn in Hi. destruct (Nat.eqb_spec o i) as [<-|Hne].
    + injection Hi as <-. cbn [ob' rc]. rewrite points_refl. lia.
    + rewrite (i_rc _ _ _ _ H i b Hi Ab), points_ne by auto. lia.
  - intros i Hi. rewrite Hn. destruct (Nat.eqb_spec o i) as [<-|Hne]; [exists ob'; split; auto|].
    rewrite points_ne in Hi by auto. apply (i_tgt _ _ _ _ H). lia.
  - intros i. rewrite (i_nb _ _ _ _ H i), Hn. destruct (Nat.eqb_spec o i) as [<-|Hne]; [|tauto].
    split; intros (b & Hb & Ab & Rb); [rewrite Ho in Hb; injection Hb as <-; lia|injection Hb as <-; discriminate].
  - exact (i_nbnd _ _ _ _ H).
  - intros i z Hz. rewrite (i_dy _ _ _ _ H i z Hz), Hn. destruct (Nat.eqb_spec o i) as [<-|Hne]; [|tauto].
    split; intros (b & Hb & Zb); [rewrite Ho in Hb; injection Hb as <-|injection Hb as <-; cbn in Zb]; destruct Hz; congruence.
  - intros i. cbn [set_obj log]. rewrite (i_dead _ _ _ _ H i). fold (set_obj s o ob'). rewrite Hn. destruct (Nat.eqb_spec o i) as [<-|Hne]; [|tauto].
    split; intros (b & Hb & Zb); [rewrite Ho in Hb; injection Hb as <-|injection Hb as <-; cbn in Zb]; congruence.
  - exact (i_nd _ _ _ _ H).
  - exact (i_ng _ _ _ _ H).
  - intros i b Hi Ab. rewrite Hn in Hi. destruct (Nat.eqb_spec o i) as [<-|Hne]; [injection Hi as <-; exact (i_nm _ _ _ _ H o ob Ho Ab)|].
    exact (i_nm _ _ _ _ H i b Hi Ab).
Qed.
(** The first reference to a new object. *)
Lemma add_ref_new s T D nb n : inv s T D (n :: nb) ->
  exists s', add_ref s (Some n) = Ok s' /\ inv s' (fun x => T x + points x (Some n)) D nb /\
    (forall B x, refs B s' x = refs B s x) /\ (forall l, read s' l = read s l).
Proof.
  intros H. cbn [add_ref]. destruct (proj1 (i_nb _ _ _ _ H n) (or_introl eq_refl)) as (ob & Ho & A & R0). rewrite (slot_get_ok _ _ _ Ho). cbn [bind].
  assert (Hlt := nth_lt _ _ _ Ho). pose proof (i_rc _ _ _ _ H n ob Ho A) as Hr.
  set (ob' := Obj (S (rc ob)) (st ob) (cls ob) (mem ob)).
  exists (set_obj s n ob'). split; [rewrite A; unfold ob'; rewrite A; reflexivity|].
  assert (Hn : forall i, nth_error (objs (set_obj s n ob')) i = if n =? i then Some ob' else nth_error (objs s) i) by (intros; now apply set_nth).
  split; [|split; [intros; now apply refs_set_same|intros; now apply read_set_same]].
  pose proof (i_nbnd _ _ _ _ H) as Nd. inversion Nd as [|? ? Nin Nd']; subst.
  split.
  - intros i b Hi Ab. rewrite Hn in Hi. destruct (Nat.eqb_spec n i) as [<-|Hne].
    + injection Hi as <-. cbn [ob' rc]. rewrite points_refl. lia.
    + rewrite (i_rc _ _ _ _ H i b Hi Ab), points_ne by auto. lia.
  - intros i Hi. rewrite Hn. destruct (Nat.eqb_spec n i) as [<-|Hne]; [exists ob'; split; auto|].
    rewrite points_ne in Hi by auto. apply (i_tgt _ _ _ _ H). lia.
  - intros i. rewrite Hn. destruct (Nat.eqb_spec n i) as [<-|Hne].
    + split; [tauto|]. intros (b & Hb & _ & Rb). injection Hb as <-. discriminate.
    + rewrite <- (i_nb _ _ _ _ H i). cbn. split; [auto|intros [X|X]; [congruence|exact X]].
  - exact Nd'.
  - intros i z Hz. rewrite (i_dy _ _ _ _ H i z Hz), Hn. destruct (Nat.eqb_spec n i) as [<-|Hne]; [|tauto].
    split; intros (b & Hb & Zb); [rewrite Ho in Hb; injection Hb as <-|injection Hb as <-; cbn in Zb]; destruct Hz; congruence.
  - intros i. cbn [set_obj log]. rewrite (i_dead _ _ _ _ H i). fold (set_obj s n ob'). rewrite Hn. destruct (Nat.eqb_spec n i) as [<-|Hne]; [|tauto].
    split; intros (b & Hb & Zb); [rewrite Ho in Hb; injection Hb as <-|injection Hb as <-; cbn in Zb]; congruence.
  - exact (i_nd _ _ _ _ H).
  - exact (i_ng _ _ _ _ H).
  - intros i b Hi Ab. rewrite Hn in Hi. destruct (Nat.eqb_spec n i) as [<-|Hne]; [injection Hi as <-; exact (i_nm _ _ _ _ H n ob Ho Ab)|].
    exact (i_nm _ _ _ _ H i b Hi Ab).
Qed.
End P.
