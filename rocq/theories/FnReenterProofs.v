(** Re-entrant use of Functions under the ranking discipline: invariant, footprint and simulation. *)
From Verif Require Import Base FnReenterModel FnReenterSpec.

Section Proofs.
Variable inline : nat -> bool.
Variable body : nat -> list cmd.
Variable dtor : nat -> bool -> list cmd.
Variable rank crank : nat -> nat.
Variable nf : nat.
Hypothesis Hbody : forall c, Forall (ranked rank crank nf (crank c)) (body c).
Hypothesis Hdtor : forall c m, Forall (ranked rank crank nf (crank c)) (dtor c m).

Notation exec := (exec inline body dtor).
Notation means := (means inline body dtor).
Notation one := (one inline body dtor).
Notation empties := (empties inline body dtor).
Notation drops := (drops inline body dtor).

Definition own (P : nat -> Prop) (s : world) (i : nat) : Prop := exists f, P f /\ points s f i.
Definition dead (s : world) (i : nat) : Prop := exists o, nth_error (objs s) i = Some o /\ st o = Dead.
Definition free (s : world) (x : fn) : Prop := forall i, buf x = Some i -> dead s i.
Definition live (s : world) (f i : nat) (inl : bool) : Prop :=
  exists o, nth_error (objs s) i = Some o /\ st o = Alive /\ crank (cls o) <= rank f /\ inline (cls o) = inl.
Definition good (s : world) (f : nat) : Prop :=
  exists x, nth_error (fns s) f = Some x /\
  match impl x with
  | PNull => free s x
  | PIn => exists i, buf x = Some i /\ live s f i true
  | PHeap i => free s x /\ live s f i false
  end.
Record Inv (P : nat -> Prop) (s : world) : Prop := mkInv {
  i_len : length (fns s) = nf;
  i_good : forall f, P f -> f < nf -> good s f;
  i_sep : forall f g i, P f -> f <> g -> points s f i -> points s g i -> False;
  i_rng : forall f i, points s f i -> i < length (objs s)
}.
Record Post (P Q : nat -> Prop) (s s' : world) : Prop := mkPost {
  p_inv : Inv Q s';
  p_cells : forall f, ~ P f -> nth_error (fns s') f = nth_error (fns s) f;
  p_len : length (objs s) <= length (objs s');
  p_objs : forall i, i < length (objs s) -> ~ own P s i -> nth_error (objs s') i = nth_error (objs s) i;
  p_dead : forall i o, nth_error (objs s) i = Some o -> st o = Dead -> nth_error (objs s') i = Some o;
  p_new : forall i, own Q s' i -> own P s i \/ length (objs s) <= i;
  p_acc : forall i, i < length (objs s') -> own P s i \/ length (objs s) <= i -> dead s' i \/ own Q s' i
}.
Definition agree (P : nat -> Prop) (s : world) (a : store) : Prop :=
  length a = nf /\ forall f, P f -> f < nf -> nth f a None = holds s f.
Definition this_ok (P : nat -> Prop) (this : option nat) (s : world) : Prop :=
  forall i, this = Some i -> (exists o, nth_error (objs s) i = Some o /\ st o <> Dead) /\ ~ own P s i.
Definition lt_ (n f : nat) : Prop := rank f < n.
Lemma nth_upd_eq {A} (l : list A) i x d : i < length l -> nth i (upd l i x) d = x.
Proof. intros H. apply nth_error_nth. now apply nth_error_upd_eq. Qed.
Lemma nth_upd_ne {A} (l : list A) i j x d : i <> j -> nth j (upd l i x) d = nth j l d.
Proof. revert i j. induction l as [|h t IH]; intros [|i] [|j] H; cbn; auto; lia. Qed.
Definition less (P : nat -> Prop) (f g : nat) : Prop := P g /\ g <> f.

Lemma points_lt s f i : points s f i -> f < length (fns s).
Proof. intros (x & Hx & _). apply nth_error_Some. congruence. Qed.
Lemma points_cell s s' f i : nth_error (fns s') f = nth_error (fns s) f -> points s' f i -> points s f i.
Proof. intros E (x & Hx & H). exists x. split; congruence. Qed.
Lemma good_points P s f i : Inv P s -> P f -> points s f i ->
  exists o, nth_error (objs s) i = Some o /\ st o = Alive /\ crank (cls o) <= rank f.
Proof.
  intros HI Hf Hp. assert (Hl := points_lt _ _ _ Hp). rewrite (i_len _ _ HI) in Hl.
  destruct (i_good _ _ HI f Hf Hl) as (x & Hx & Hg). destruct Hp as (y & Hy & Hp). rewrite Hx in Hy. injection Hy as <-.
  destruct Hp as [E|[E E2]]; rewrite E in Hg.
  - destruct Hg as (_ & o & H1 & H2 & H3 & _). eauto.
  - destruct Hg as (j & Hj & o & H1 & H2 & H3 & _). rewrite E2 in Hj. injection Hj as <-. eauto.
Qed.
Lemma own_alive P s i : Inv P s -> own P s i -> exists o, nth_error (objs s) i = Some o /\ st o = Alive.
Proof. intros HI (f & Hf & Hp). destruct (good_points _ _ _ _ HI Hf Hp) as (o & ? & ? & _). eauto. Qed.
Lemma dead_not_own P s i : Inv P s -> dead s i -> ~ own P s i.
Proof. intros HI (o & Ho & Hd) H. destruct (own_alive _ _ _ HI H) as (o' & E & A). congruence. Qed.
Lemma holds_cell s s' f : nth_error (fns s') f = nth_error (fns s) f ->
  (forall i, points s f i -> nth_error (objs s') i = nth_error (objs s) i) -> holds s' f = holds s f.
Proof.
  intros E H. unfold holds. rewrite E. destruct (nth_error (fns s) f) as [x|] eqn:Ex; auto.
  destruct (impl x) eqn:Ei; auto.
  - destruct (buf x) as [i|] eqn:Eb; auto. rewrite (H i); auto. exists x; auto.
  - rewrite (H id); auto. exists x; auto.
Qed.
Lemma holds_points s f i o : points s f i -> nth_error (objs s) i = Some o -> holds s f = Some (cls o, moved o).
Proof.
  intros (x & Hx & H) Ho. unfold holds. rewrite Hx. destruct H as [E|[E Eb]]; rewrite E; rewrite ?Eb, Ho; auto.
Qed.
Lemma holds_null s f x : nth_error (fns s) f = Some x -> impl x = PNull -> holds s f = None.
Proof. intros H E. unfold holds. now rewrite H, E. Qed.
Lemma dead_keep P Q s s' i : Post P Q s s' -> dead s i -> dead s' i.
Proof. intros H (o & Ho & Hd). exists o. split; auto. eapply p_dead; eauto. Qed.

Lemma inv_sub (P Q : nat -> Prop) s : (forall f, Q f -> P f) -> Inv P s -> Inv Q s.
Proof. intros H [A B C D]. constructor; eauto. Qed.
Lemma own_sub (P Q : nat -> Prop) s i : (forall f, Q f -> P f) -> own Q s i -> own P s i.
Proof. intros H (f & Hf & Hp). exists f. auto. Qed.

Lemma post_refl P s : Inv P s -> Post P P s s.
Proof.
  intros HI. constructor; auto.
  intros i Hi [H|H]; auto. lia.
Qed.
Lemma post_trans (P Q R : nat -> Prop) s s1 s2 :
  Post P Q s s1 -> Post P R s1 s2 -> (forall f, Q f -> P f) ->
  (forall i, own P s1 i -> own P s i \/ length (objs s) <= i) -> Post P R s s2.
Proof.
  intros H1 H2 HQ Ho. constructor.
  - apply (p_inv _ _ _ _ H2).
  - intros f Hf. rewrite (p_cells _ _ _ _ H2 f Hf). apply (p_cells _ _ _ _ H1 f Hf).
  - apply p_len in H1, H2. lia.
  - intros i Hi Hn. rewrite (p_objs _ _ _ _ H2 i).
    + apply (p_objs _ _ _ _ H1 i Hi Hn).
    + apply p_len in H1. lia.
    + intros H. destruct (Ho i H); auto. lia.
  - intros i o E D. eapply (p_dead _ _ _ _ H2); eauto. eapply (p_dead _ _ _ _ H1); eauto.
  - intros i H. destruct (p_new _ _ _ _ H2 i H) as [H'|H']; auto. right. apply p_len in H1. lia.
  - intros i Hi H. destruct (Nat.lt_ge_cases i (length (objs s1))) as [L|L].
    + destruct (p_acc _ _ _ _ H1 i L H) as [D|D].
      * left. eapply dead_keep; eauto.
      * apply (p_acc _ _ _ _ H2 i Hi). left. eapply own_sub; eauto.
    + apply (p_acc _ _ _ _ H2 i Hi). auto.
Qed.
Lemma post_trans_same P s s1 s2 : Post P P s s1 -> Post P P s1 s2 -> Post P P s s2.
Proof. intros H1 H2. eapply post_trans; eauto. intros i. apply (p_new _ _ _ _ H1). Qed.

(** A nested run under a smaller footprint. *)
Lemma post_lift (P L : nat -> Prop) s s' :
  (forall f, L f \/ ~ L f) -> (forall f, L f -> P f) -> Inv P s -> Post L L s s' -> Post P P s s'.
Proof.
  intros Dec Sub HI H.
  assert (Hout : forall f i, ~ L f -> points s' f i -> points s f i).
  { intros f i Hf. apply points_cell. apply (p_cells _ _ _ _ H f Hf). }
  assert (Hin : forall f i, ~ L f -> points s f i -> points s' f i).
  { intros f i Hf. apply points_cell. symmetry. apply (p_cells _ _ _ _ H f Hf). }
  assert (Hobj : forall f i, P f -> ~ L f -> points s f i -> nth_error (objs s') i = nth_error (objs s) i).
  { intros f i HP HL Hp. apply (p_objs _ _ _ _ H); [eapply i_rng; eauto|].
    intros (g & Hg & Hpg). eapply (i_sep _ _ HI g f i); eauto. intros ->. auto. }
  assert (HI' : Inv P s').
  { constructor.
    - apply (i_len _ _ (p_inv _ _ _ _ H)).
    - intros f HP Hf. destruct (Dec f) as [HL|HL].
      + apply (i_good _ _ (p_inv _ _ _ _ H)); auto.
      + destruct (i_good _ _ HI f HP Hf) as (x & Hx & Hg). exists x.
        split; [rewrite (p_cells _ _ _ _ H f HL); assumption|].
        assert (Hfree : free s x -> free s' x).
        { intros Hfr i Hi. eapply dead_keep; eauto. }
        destruct (impl x) eqn:Ei; auto.
        * destruct Hg as (i & Hb & o & Ho & Hg). exists i. split; auto. exists o. split; auto.
          rewrite (Hobj f i); auto. exists x. auto.
        * destruct Hg as (Hfr & o & Ho & Hg). split; auto. exists o. split; auto.
          rewrite (Hobj f id); auto. exists x. auto.
    - intros f g i HP Hne H1 H2. destruct (Dec f) as [HL|HL].
      + eapply (i_sep _ _ (p_inv _ _ _ _ H) f g); eauto.
      + destruct (Dec g) as [HG|HG].
        * eapply (i_sep _ _ (p_inv _ _ _ _ H) g f); eauto.
        * eapply (i_sep _ _ HI f g); eauto.
    - apply (i_rng _ _ (p_inv _ _ _ _ H)). }
  constructor; auto.
  - intros f Hf. apply (p_cells _ _ _ _ H). auto.
  - apply (p_len _ _ _ _ H).
  - intros i Hi Hn. apply (p_objs _ _ _ _ H); auto. intros Ho. apply Hn. eapply own_sub; eauto.
  - apply (p_dead _ _ _ _ H).
  - intros i (f & Hf & Hp). destruct (Dec f) as [HL|HL].
    + destruct (p_new _ _ _ _ H i) as [A|A]; [exists f; auto| |auto]. left. eapply own_sub; eauto.
    + left. exists f. auto.
  - intros i Hi [(f & Hf & Hp)|Hn].
    + destruct (Dec f) as [HL|HL].
      * destruct (p_acc _ _ _ _ H i Hi) as [A|A]; [left; exists f; auto|auto|]. right. eapply own_sub; eauto.
      * right. exists f. auto.
    + destruct (p_acc _ _ _ _ H i Hi) as [A|A]; auto. right. eapply own_sub; eauto.
Qed.

(** Changing an object nobody of [P] points to. *)
Lemma inv_set_obj P s i o' :
  Inv P s -> ~ own P s i -> ~ dead s i -> Inv P (set_obj s i o').
Proof.
  intros HI Ho Hd.
  assert (Hk : forall j, j <> i -> nth_error (objs (set_obj s i o')) j = nth_error (objs s) j).
  { intros j Hj. cbn. apply nth_error_upd_ne. auto. }
  constructor.
  - apply (i_len _ _ HI).
  - intros f HP Hf. destruct (i_good _ _ HI f HP Hf) as (x & Hx & Hg). exists x. split; auto.
    assert (Hfree : free s x -> free (set_obj s i o') x).
    { intros Hfr j Hj. destruct (Hfr j Hj) as (o & E & D). exists o. split; auto. rewrite Hk; auto.
      intros ->. apply Hd. exists o. auto. }
    assert (Hne : forall j, points s f j -> j <> i).
    { intros j Hp ->. apply Ho. exists f. auto. }
    destruct (impl x) eqn:Ei; auto.
    + destruct Hg as (j & Hb & o & E & Hg). exists j. split; auto. exists o. split; auto. rewrite Hk; auto.
      apply Hne. exists x. auto.
    + destruct Hg as (Hfr & o & E & Hg). split; auto. exists o. split; auto. rewrite Hk; auto.
      apply Hne. exists x. auto.
  - apply (i_sep _ _ HI).
  - intros f j Hp. cbn. rewrite upd_length. apply (i_rng _ _ HI f j Hp).
Qed.
Lemma inv_note P s e : Inv P s -> Inv P (note s e).
Proof. intros [A B C D]. constructor; auto. Qed.
Lemma agree_set_obj P s a i o' : agree P s a -> ~ own P s i -> agree P (set_obj s i o') a.
Proof.
  intros [H1 H2] Ho. split; auto. intros f HP Hf. rewrite H2 by assumption. symmetry. apply holds_cell; auto.
  intros j Hp. cbn. apply nth_error_upd_ne. intros ->. apply Ho. exists f. auto.
Qed.

(** What running commands of rank [n] achieves. *)
Definition RunOK (n : nat) : Prop := forall ks, Forall (ranked rank crank nf n) ks -> forall this s a,
  Inv (lt_ n) s -> this_ok (lt_ n) this s -> agree (lt_ n) s a ->
  exists F s' e a', (forall fuel, F <= fuel -> exec fuel this s ks = Ok s') /\ Post (lt_ n) (lt_ n) s s' /\
    log s' = rev e ++ log s /\ means a ks e a' /\ agree (lt_ n) s' a' /\ (forall f, ~ lt_ n f -> nth f a' None = nth f a None).

(** The same for a callable of class [c], seen from a larger footprint. *)
Definition Keep (P : nat -> Prop) (s : world) (a : store) (s' : world) (a' : store) : Prop :=
  Post P P s s' /\ agree P s' a' /\ (forall f, ~ P f -> nth f a' None = nth f a None).

Lemma lt_dec n f : lt_ n f \/ ~ lt_ n f.
Proof. unfold lt_. destruct (Nat.lt_ge_cases (rank f) n); [now left|right; now apply Nat.le_ngt]. Qed.

Lemma run_lift n (P : nat -> Prop) : RunOK n -> (forall f, lt_ n f -> P f) -> forall ks, Forall (ranked rank crank nf n) ks -> forall this s a,
  Inv P s -> this_ok (lt_ n) this s -> agree P s a ->
  exists F s' e a', (forall fuel, F <= fuel -> exec fuel this s ks = Ok s') /\
    log s' = rev e ++ log s /\ means a ks e a' /\ Keep P s a s' a'.
Proof.
  intros HR Sub ks Hks this s a HI Ht Ha.
  destruct (HR ks Hks this s a) as (F & s' & e & a' & H1 & H2 & H3 & H4 & H5 & H6).
  - eapply inv_sub; eauto.
  - assumption.
  - destruct Ha as [Ha1 Ha2]. split; auto.
  - exists F, s', e, a'. repeat (split; [assumption|]). split; [|split].
    + eapply post_lift; eauto. apply lt_dec.
    + split; [apply H5|]. intros f HP Hf. destruct (lt_dec n f) as [L|L].
      * now apply H5.
      * rewrite H6 by assumption. rewrite (proj2 Ha f HP Hf). symmetry. apply holds_cell.
        -- apply (p_cells _ _ _ _ H2 f L).
        -- intros i Hp. apply (p_objs _ _ _ _ H2); [eapply i_rng; eauto|].
           intros (g & Hg & Hpg). eapply (i_sep _ _ HI g f i); eauto. intros ->. auto.
    + intros f Hf. apply H6. intros H. apply Hf. auto.
Qed.

(** The destructor of a callable that no Function of [P] holds. *)
Lemma kill_ok (P : nat -> Prop) s a i o : RunOK (crank (cls o)) -> (forall f, lt_ (crank (cls o)) f -> P f) ->
  Inv P s -> agree P s a -> nth_error (objs s) i = Some o -> st o = Alive -> ~ own P s i ->
  exists F s1 e a', (forall fuel, F <= fuel -> kill dtor (exec fuel) s i = Ok (set_obj s1 i (Obj (cls o) (moved o) Dead))) /\
    log s1 = rev e ++ log s /\ drops a (cls o, moved o) e a' /\
    Keep P (note (set_obj s i (Obj (cls o) (moved o) Dying)) (Dropped (cls o) (moved o))) a s1 a' /\
    nth_error (objs s1) i = Some (Obj (cls o) (moved o) Dying).
Proof.
  intros HR Sub HI Ha Ho Al Hn.
  assert (Hil : i < length (objs s)) by (apply nth_error_Some; congruence).
  set (s0 := note (set_obj s i (Obj (cls o) (moved o) Dying)) (Dropped (cls o) (moved o))).
  assert (Hi0 : nth_error (objs s0) i = Some (Obj (cls o) (moved o) Dying)) by (cbn; now apply nth_error_upd_eq).
  assert (HI0 : Inv P s0).
  { apply inv_note, inv_set_obj; auto. intros (o2 & E & D). congruence. }
  destruct (run_lift _ P HR Sub (dtor (cls o) (moved o)) (Hdtor _ _) (Some i) s0 a) as (F & s1 & e & a' & H1 & H2 & H3 & H4).
  - assumption.
  - intros j [= <-]. split; [eexists; split; [eassumption|discriminate]|].
    intros H. apply Hn. eapply own_sub; [exact Sub|exact H].
  - apply (agree_set_obj P s a i _ Ha Hn).
  - exists F, s1, (Dropped (cls o) (moved o) :: e), a'. split; [|split; [|split; [|split]]].
    + intros fuel HF. unfold kill. rewrite (slot_get_ok _ _ _ Ho). cbn [bind]. rewrite Al.
      fold s0. rewrite (H1 fuel HF). reflexivity.
    + rewrite H2. cbn. now rewrite <- app_assoc.
    + now constructor.
    + exact H4.
    + destruct H4 as (HP & _). rewrite <- Hi0. apply (p_objs _ _ _ _ HP); auto. cbn. now rewrite upd_length.
Qed.

(** The state after destroy(): the Function [f] still points to what is now dead. *)
Record Emptied (n f : nat) (s s1 : world) : Prop := mkEmptied {
  e_post : Post (lt_ n) (less (lt_ n) f) s s1;
  e_cell : nth_error (fns s1) f = nth_error (fns s) f;
  e_dead : forall i, points s f i -> dead s1 i;
  e_free : forall x, nth_error (fns s1) f = Some x -> free s1 x
}.
Lemma less_dec n f g : lt_ n g -> less (lt_ n) f g \/ g = f.
Proof. unfold less. destruct (Nat.eq_dec g f); auto. Qed.
Lemma own_less n f s i : own (lt_ n) s i -> own (less (lt_ n) f) s i \/ points s f i.
Proof. intros (g & Hg & Hp). destruct (less_dec n f g Hg) as [H| ->]; auto. left. exists g. auto. Qed.

Lemma destroy_ok n s a f : (forall r, r < n -> RunOK r) -> Inv (lt_ n) s -> agree (lt_ n) s a -> f < nf -> rank f < n ->
  exists F s1 e a1, (forall fuel, F <= fuel -> destroy dtor (exec fuel) s f = Ok s1) /\ Emptied n f s s1 /\
    log s1 = rev e ++ log s /\ empties a f e a1 /\ agree (less (lt_ n) f) s1 a1 /\ nth f a1 None = None /\
    (forall g, ~ lt_ n g -> nth g a1 None = nth g a None).
Proof.
  intros IH HI Ha Hf Hr.
  assert (HIl : Inv (less (lt_ n) f) s) by (eapply inv_sub; [|eassumption]; intros g [H _]; exact H).
  destruct (i_good _ _ HI f Hr Hf) as (x & Hx & Hg).
  assert (Hget : get s f = Ok x) by (apply slot_get_ok; assumption).
  assert (Hcase : impl x = PNull \/ exists i o, deref x = Ok i /\ impl x <> PNull /\ points s f i /\
     nth_error (objs s) i = Some o /\ st o = Alive /\ crank (cls o) <= rank f /\
     (forall j, buf x = Some j -> j = i \/ dead s j)).
  { unfold deref, points. destruct (impl x) eqn:Ei; auto; right.
    - destruct Hg as (i & Hb & o & E & Hg). rewrite Hb. exists i, o. repeat split; try tauto; try congruence.
      + exists x. auto.
      + intros j [= ->]. auto.
    - destruct Hg as (Hfr & o & E & Hg). exists id, o. repeat split; try tauto; try congruence.
      + exists x. auto.
      + intros j Hj. right. auto. }
  destruct Hcase as [En|(i & o & Hd & Hne & Hp & Ho & Al & Hc & Hb)].
  - exists 0, s, [], a. split; [|split; [constructor; [constructor| | |]|]]; auto.
    + intros fuel _. unfold destroy. rewrite Hget. cbn [bind]. now rewrite En.
    + intros i (g & [Hg1 _] & Hp). left. exists g. auto.
    + intros i Hi [(g & Hg1 & Hp)|L]; [|lia]. right. exists g. split; auto. split; auto. intros ->.
      destruct Hp as (y & Hy & Hp). rewrite Hx in Hy. injection Hy as <-. rewrite En in Hp.
      destruct Hp as [?|[? ?]]; discriminate.
    + intros i (y & Hy & Hp). rewrite Hx in Hy. injection Hy as <-. rewrite En in Hp.
      destruct Hp as [?|[? ?]]; discriminate.
    + intros y Hy. rewrite Hx in Hy. injection Hy as <-. now rewrite En in Hg.
    + split; [reflexivity|]. split; [|split; [|split; [|auto]]].
      * constructor. rewrite (proj2 Ha f Hr Hf). eapply holds_null; eauto.
      * split; [apply Ha|]. intros g [Hg1 _] Hg2. now apply Ha.
      * rewrite (proj2 Ha f Hr Hf). eapply holds_null; eauto.
  - assert (Hno : ~ own (less (lt_ n) f) s i).
    { intros (g & [Hg1 Hg2] & Hpg). eapply (i_sep _ _ HI g f i); eauto. }
    assert (Hfa : f < length a) by (destruct Ha as [-> _]; assumption).
    assert (Hag : agree (less (lt_ n) f) s (upd a f None)).
    { split; [rewrite upd_length; apply Ha|]. intros g [Hg1 Hg2] Hgn. rewrite <- (proj2 Ha g Hg1 Hgn).
      apply nth_upd_ne. auto. }
    destruct (kill_ok (less (lt_ n) f) s (upd a f None) i o) as (F & s1 & e & a1 & H1 & H2 & H3 & H4 & H5); auto.
    { apply IH. lia. }
    { intros g Hg1. unfold less, lt_ in *. split; [lia|]. intros ->. lia. }
    set (s0 := note (set_obj s i (Obj (cls o) (moved o) Dying)) (Dropped (cls o) (moved o))) in *.
    set (s2 := set_obj s1 i (Obj (cls o) (moved o) Dead)) in *.
    destruct H4 as (HP & HA & HO).
    assert (Hl0 : length (objs s0) = length (objs s)) by (cbn; apply upd_length).
    assert (Hil : i < length (objs s)) by (apply nth_error_Some; congruence).
    assert (Hil1 : i < length (objs s1)) by (assert (Q := p_len _ _ _ _ HP); lia).
    assert (Hno1 : ~ own (less (lt_ n) f) s1 i).
    { intros Hx1. destruct (p_new _ _ _ _ HP i Hx1) as [A|A]; [exact (Hno A)|lia]. }
    assert (Hk : forall j, j <> i -> nth_error (objs s2) j = nth_error (objs s1) j).
    { intros j Hj. cbn. apply nth_error_upd_ne. auto. }
    assert (Hk0 : forall j, j <> i -> nth_error (objs s0) j = nth_error (objs s) j).
    { intros j Hj. cbn. apply nth_error_upd_ne. auto. }
    assert (Hd2 : dead s2 i).
    { eexists. split; [cbn; apply nth_error_upd_eq; assumption|reflexivity]. }
    assert (Hdk : forall j, dead s1 j -> dead s2 j).
    { intros j (o2 & E & D). destruct (Nat.eq_dec j i) as [->|Hj]; auto. exists o2. split; auto. rewrite Hk; auto. }
    assert (Hdk0 : forall j, dead s j -> dead s1 j).
    { intros j (o2 & E & D). apply (dead_keep _ _ _ _ _ HP). exists o2. split; auto. rewrite Hk0; auto. intros ->. congruence. }
    assert (Hcell : nth_error (fns s1) f = nth_error (fns s) f).
    { apply (p_cells _ _ _ _ HP). intros [_ Q]. auto. }
    exists F, s2, e, a1. split; [|split; [constructor; [constructor| | |]|]].
    + intros fuel HF. unfold destroy. rewrite Hget. cbn [bind].
      destruct (impl x) eqn:Ei; try congruence; rewrite Hd; cbn [bind]; rewrite (H1 fuel HF); reflexivity.
    + apply inv_set_obj; auto. { apply (p_inv _ _ _ _ HP). } intros (o2 & E & D). rewrite H5 in E. injection E as <-. discriminate.
    + intros g Hg1. apply (p_cells _ _ _ _ HP). intros [Q _]. auto.
    + cbn. rewrite upd_length. assert (Q := p_len _ _ _ _ HP). lia.
    + intros j Hj Hn. assert (j <> i). { intros ->. apply Hn. exists f. auto. }
      rewrite Hk by assumption. rewrite (p_objs _ _ _ _ HP j); [now apply Hk0|lia|].
      intros (g & [Hg1 Hg2] & Hpg). apply Hn. exists g. auto.
    + intros j o2 E D. assert (j <> i) by (intros ->; congruence). rewrite Hk by assumption.
      eapply (p_dead _ _ _ _ HP); eauto. now rewrite Hk0.
    + intros j Hj. assert (Hj1 : own (less (lt_ n) f) s1 j) by exact Hj.
      destruct (p_new _ _ _ _ HP j Hj1) as [(g & [Hg1 Hg2] & Hpg)|L]; [|right; lia].
      left. exists g. auto.
    + intros j Hj [Q|Q].
      * destruct (own_less n f s j Q) as [Q1|Q1].
        -- destruct (p_acc _ _ _ _ HP j) as [A|A]; auto. cbn in Hj. now rewrite upd_length in Hj.
        -- left. assert (j = i); [|subst; assumption].
           destruct Q1 as (y & Hy & Q1), Hp as (z & Hz & Q2). rewrite Hx in Hy, Hz. injection Hy as <-. injection Hz as <-.
           destruct Q1 as [E|[E E2]], Q2 as [G|[G G2]]; congruence.
      * destruct (p_acc _ _ _ _ HP j) as [A|A]; auto. { cbn in Hj. now rewrite upd_length in Hj. } right. lia.
    + exact Hcell.
    + intros j Q1. assert (j = i); [|subst; assumption].
      destruct Q1 as (y & Hy & Q1), Hp as (z & Hz & Q2). rewrite Hx in Hy, Hz. injection Hy as <-. injection Hz as <-.
      destruct Q1 as [E|[E E2]], Q2 as [G|[G G2]]; congruence.
    + intros y Hy j Hj. change (fns s2) with (fns s1) in Hy. rewrite Hcell, Hx in Hy. injection Hy as <-.
      destruct (Hb j Hj) as [->|D]; auto.
    + split; [exact H2|]. split; [|split; [|split]].
      * econstructor; [|eassumption]. rewrite (proj2 Ha f Hr Hf). eapply holds_points; eauto.
      * apply agree_set_obj; auto.
      * rewrite HO by (intros [_ Q]; auto). apply nth_upd_eq. assumption.
      * intros g Hg1. rewrite HO by (intros [Q _]; auto). apply nth_upd_ne. intros ->. auto.
Qed.

Lemma points_cell_iff s s' f i : nth_error (fns s') f = nth_error (fns s) f -> points s' f i <-> points s f i.
Proof. intros E. split; apply points_cell; auto. Qed.
Lemma nth_error_app_old {A} (l m : list A) i : i < length l -> nth_error (l ++ m) i = nth_error l i.
Proof. intros. now apply nth_error_app1. Qed.
Lemma good_cell s s' f : nth_error (fns s') f = nth_error (fns s) f ->
  (forall i o, nth_error (objs s) i = Some o -> nth_error (objs s') i = Some o) -> good s f -> good s' f.
Proof.
  intros E H (x & Hx & Hg). exists x. split; [congruence|].
  assert (Hfr : free s x -> free s' x).
  { intros Q i Hi. destruct (Q i Hi) as (o & ? & ?). exists o. auto. }
  assert (Hlv : forall i b, live s f i b -> live s' f i b).
  { intros i b (o & ? & ?). exists o. auto. }
  destruct (impl x); auto.
  - destruct Hg as (i & ? & ?). exists i. auto.
  - destruct Hg. auto.
Qed.

Lemma emptied_trans n f s s1 s2 : Emptied n f s s1 -> Post (lt_ n) (lt_ n) s1 s2 -> rank f < n -> Post (lt_ n) (lt_ n) s s2.
Proof.
  intros [HP HC HD HF] H2 Hr. eapply post_trans; [exact HP|exact H2| |].
  - intros g [Q _]. exact Q.
  - intros i Q. destruct (own_less n f s1 i Q) as [Q1|Q1].
    + apply (p_new _ _ _ _ HP i Q1).
    + left. exists f. split; [exact Hr|]. eapply points_cell; [|exact Q1]. auto.
Qed.

(** The Function gets new contents: nothing, or one new object. *)
Lemma refill n f s s1 x' news lg a1 :
  Emptied n f s s1 -> f < nf -> rank f < n ->
  let s2 := World (objs s1 ++ news) (upd (fns s1) f x') lg in
  good s2 f ->
  (forall i, points s2 f i -> length (objs s1) <= i) ->
  (forall i, length (objs s1) <= i < length (objs s1 ++ news) -> points s2 f i) ->
  agree (less (lt_ n) f) s1 a1 ->
  Post (lt_ n) (lt_ n) s s2 /\ agree (lt_ n) s2 (upd a1 f (holds s2 f)).
Proof.
  intros HE Hf Hr s2 Hg Hp1 Hp2 Ha. assert (HP := e_post _ _ _ _ HE). assert (HI := p_inv _ _ _ _ HP).
  assert (Hlf : f < length (fns s1)) by (rewrite (i_len _ _ HI); assumption).
  assert (Hcell : forall g, g <> f -> nth_error (fns s2) g = nth_error (fns s1) g).
  { intros g Hg1. cbn. apply nth_error_upd_ne. auto. }
  assert (Hold : forall i o, nth_error (objs s1) i = Some o -> nth_error (objs s2) i = Some o).
  { intros i o E. cbn. rewrite nth_error_app_old; auto. apply nth_error_Some. congruence. }
  split.
  - apply (emptied_trans n f s s1 s2 HE); auto. constructor.
    + constructor.
      * cbn. rewrite upd_length. apply (i_len _ _ HI).
      * intros g HPg Hgn. destruct (less_dec n f g HPg) as [L| ->]; auto.
        eapply good_cell; [apply Hcell, L|exact Hold|]. apply (i_good _ _ HI); auto.
      * intros g h i HPg Hne H1 H2.
        assert (Hnew : forall k, k <> f -> points s2 k i -> i < length (objs s1)).
        { intros k Hk Q. apply (i_rng _ _ HI k i). eapply points_cell; [|exact Q]. auto using eq_sym. }
        destruct (Nat.eq_dec g f) as [->|Hgf]; [|destruct (Nat.eq_dec h f) as [->|Hhf]].
        -- specialize (Hp1 i H1). specialize (Hnew h ltac:(auto) H2). lia.
        -- specialize (Hp1 i H2). specialize (Hnew g ltac:(auto) H1). lia.
        -- apply (i_sep _ _ HI g h i); [split; assumption|assumption| |]; [eapply points_cell; [|exact H1]|eapply points_cell; [|exact H2]]; auto using eq_sym.
      * intros g i Q. cbn. rewrite app_length. destruct (Nat.eq_dec g f) as [->|Hgf].
        -- destruct Hg as (y & Hy & Hg). destruct Q as (z & Hz & Q). rewrite Hy in Hz. injection Hz as <-.
           rewrite <- app_length. change (objs s1 ++ news) with (objs s2).
           destruct (impl y) eqn:Ei.
           ++ destruct Q as [?|[? ?]]; discriminate.
           ++ destruct Q as [?|[_ Q]]; [discriminate|]. destruct Hg as (j & Hj & o & Ho & _). apply nth_error_Some. congruence.
           ++ destruct Q as [Q|[? ?]]; [|discriminate]. injection Q as ->. destruct Hg as (_ & o & Ho & _). apply nth_error_Some. congruence.
        -- assert (i < length (objs s1)); [|lia]. apply (i_rng _ _ HI g i). eapply points_cell; [|exact Q]. auto using eq_sym.
    + intros g Hg1. apply Hcell. intros ->. auto.
    + cbn. rewrite app_length. lia.
    + intros i Hi _. cbn. now apply nth_error_app_old.
    + intros i o E _. auto.
    + intros i (g & Hg1 & Q). destruct (Nat.eq_dec g f) as [->|Hgf]; auto.
      left. exists g. split; auto. eapply points_cell; [|exact Q]. auto using eq_sym.
    + intros i Hi [Q|Q].
      * destruct (own_less n f s1 i Q) as [(g & [Hg1 Hg2] & Q1)|Q1].
        -- right. exists g. split; auto. eapply points_cell; [|exact Q1]. auto using eq_sym.
        -- left. destruct (e_dead _ _ _ _ HE i) as (o & Ho & D).
           { eapply points_cell; [|exact Q1]. apply (e_cell _ _ _ _ HE). }
           exists o. auto.
      * right. exists f. split; auto.
  - destruct Ha as [Ha1 Ha2]. split; [now rewrite upd_length|]. intros g HPg Hgn.
    destruct (less_dec n f g HPg) as [L| ->].
    + rewrite nth_upd_ne by (intros ->; apply L; reflexivity). rewrite Ha2 by assumption. symmetry. apply holds_cell; [apply Hcell, L|].
      intros i Q. cbn. apply nth_error_app_old. apply (i_rng _ _ HI g i Q).
    + rewrite nth_upd_eq; auto. now rewrite Ha1.
Qed.

(** The pointer of [g] is taken over by [f]. *)
Lemma steal n f g s s1 x y i a1 lg :
  Emptied n f s s1 -> f < nf -> g < nf -> f <> g -> rank f < n -> rank g <= rank f ->
  nth_error (fns s1) f = Some x -> nth_error (fns s1) g = Some y -> impl y = PHeap i ->
  agree (less (lt_ n) f) s1 a1 ->
  let s2 := World (objs s1) (upd (upd (fns s1) f (Fn (PHeap i) (buf x))) g (Fn PNull (buf y))) lg in
  Post (lt_ n) (lt_ n) s s2 /\
  exists o, nth_error (objs s1) i = Some o /\ inline (cls o) = false /\ nth g a1 None = Some (cls o, moved o) /\
    agree (lt_ n) s2 (upd (upd a1 f (Some (cls o, moved o))) g None).
Proof.
  intros HE Hf Hg Hfg Hr Hrg Hx Hy Ey Ha s2. assert (HP := e_post _ _ _ _ HE). assert (HI := p_inv _ _ _ _ HP).
  assert (HPg : less (lt_ n) f g) by (split; [unfold lt_; lia|auto]).
  destruct (i_good _ _ HI g HPg Hg) as (y' & Hy' & Hgood). rewrite Hy in Hy'. injection Hy' as <-. rewrite Ey in Hgood.
  destruct Hgood as (Hfry & o & Ho & Al & Hc & Hin).
  assert (Hpg : points s1 g i) by (exists y; auto).
  assert (Hlf : f < length (fns s1)) by (rewrite (i_len _ _ HI); assumption).
  assert (Hlg : g < length (fns s1)) by (rewrite (i_len _ _ HI); assumption).
  assert (Hcf : nth_error (fns s2) f = Some (Fn (PHeap i) (buf x))).
  { cbn. rewrite nth_error_upd_ne by auto. now apply nth_error_upd_eq. }
  assert (Hcg : nth_error (fns s2) g = Some (Fn PNull (buf y))).
  { cbn. apply nth_error_upd_eq. now rewrite upd_length. }
  assert (Hcell : forall h, h <> f -> h <> g -> nth_error (fns s2) h = nth_error (fns s1) h).
  { intros h H1 H2. cbn. rewrite !nth_error_upd_ne by auto. reflexivity. }
  assert (Hpf2 : forall j, points s2 f j -> j = i).
  { intros j (z & Hz & Q). rewrite Hcf in Hz. injection Hz as <-. cbn in Q. destruct Q as [[= ->]|[? ?]]; auto. discriminate. }
  assert (Hpg2 : forall j, ~ points s2 g j).
  { intros j (z & Hz & Q). rewrite Hcg in Hz. injection Hz as <-. cbn in Q. destruct Q as [?|[? ?]]; discriminate. }
  assert (Hpf : points s2 f i) by (eexists; split; [exact Hcf|auto]).
  assert (Hfree : forall z, free s1 z -> free s2 z) by (intros z Q; exact Q).
  split; [|exists o; repeat (split; [assumption|]); split].
  - apply (emptied_trans n f s s1 s2 HE); auto. constructor.
    + constructor.
      * cbn. rewrite !upd_length. apply (i_len _ _ HI).
      * intros h Hh Hhn. destruct (Nat.eq_dec h f) as [->|Hhf]; [|destruct (Nat.eq_dec h g) as [->|Hhg]].
        -- exists (Fn (PHeap i) (buf x)). split; auto. cbn. split.
           ++ apply Hfree. intros j Hj. eapply (e_free _ _ _ _ HE); eauto.
           ++ exists o. repeat split; auto. lia.
        -- exists (Fn PNull (buf y)). split; auto.
        -- eapply good_cell; [apply Hcell; assumption| |]; [auto|]. apply (i_good _ _ HI); auto. split; auto.
      * intros h k j Hh Hne H1 H2.
        assert (Hi1 : forall z, z <> f -> z <> g -> points s2 z i -> False).
        { intros z Hz1 Hz2 Q. eapply (i_sep _ _ HI g z i); eauto. eapply points_cell; [|exact Q]. auto using eq_sym. }
        destruct (Nat.eq_dec h g) as [->|Hhg]; [exact (Hpg2 _ H1)|].
        destruct (Nat.eq_dec k g) as [->|Hkg]; [exact (Hpg2 _ H2)|].
        destruct (Nat.eq_dec h f) as [->|Hhf]; [|destruct (Nat.eq_dec k f) as [->|Hkf]].
        -- rewrite (Hpf2 j H1) in H2. eapply (Hi1 k); eauto.
        -- rewrite (Hpf2 j H2) in H1. eapply (Hi1 h); eauto.
        -- apply (i_sep _ _ HI h k j); [split; assumption|assumption| |]; [eapply points_cell; [|exact H1]|eapply points_cell; [|exact H2]]; auto using eq_sym.
      * intros h j Q. cbn. destruct (Nat.eq_dec h f) as [->|Hhf]; [|destruct (Nat.eq_dec h g) as [->|Hhg]].
        -- rewrite (Hpf2 j Q). apply nth_error_Some. congruence.
        -- destruct (Hpg2 _ Q).
        -- apply (i_rng _ _ HI h j). eapply points_cell; [|exact Q]. auto using eq_sym.
    + intros h Hh. apply Hcell; intros ->; apply Hh; unfold lt_ in *; lia.
    + reflexivity.
    + reflexivity.
    + auto.
    + intros j (h & Hh & Q). left. destruct (Nat.eq_dec h f) as [->|Hhf]; [|destruct (Nat.eq_dec h g) as [->|Hhg]].
      * rewrite (Hpf2 j Q). exists g. split; auto. apply HPg.
      * destruct (Hpg2 _ Q).
      * exists h. split; auto. eapply points_cell; [|exact Q]. auto using eq_sym.
    + intros j Hj [Q|Q]; [|cbn in Hj; lia]. destruct (own_less n f s1 j Q) as [(h & [Hh1 Hh2] & Q1)|Q1].
      * right. destruct (Nat.eq_dec h g) as [->|Hhg].
        -- exists f. split; auto. assert (j = i); [|subst; auto].
           destruct Q1 as (z & Hz & Q1). rewrite Hy in Hz. injection Hz as <-. rewrite Ey in Q1. destruct Q1 as [[= ->]|[? ?]]; auto. discriminate.
        -- exists h. split; auto. eapply points_cell; [|exact Q1]. auto using eq_sym.
      * left. destruct (e_dead _ _ _ _ HE j) as (o2 & Ho2 & D).
        { eapply points_cell; [|exact Q1]. apply (e_cell _ _ _ _ HE). }
        exists o2. auto.
  - rewrite (proj2 Ha g HPg Hg). eapply holds_points; eauto.
  - destruct Ha as [Ha1 Ha2]. split; [now rewrite !upd_length|]. intros h Hh Hhn.
    destruct (Nat.eq_dec h g) as [->|Hhg]; [|destruct (Nat.eq_dec h f) as [->|Hhf]].
    + rewrite nth_upd_eq by (rewrite upd_length, Ha1; assumption). symmetry. eapply holds_null; eauto.
    + rewrite nth_upd_ne by auto. rewrite nth_upd_eq by (rewrite Ha1; assumption). symmetry. eapply holds_points; eauto.
    + rewrite !nth_upd_ne by auto. rewrite Ha2 by (try split; assumption). symmetry. apply holds_cell; [now apply Hcell|auto].
Qed.

Lemma upd_same {A} (l : list A) i d : upd l i (nth i l d) = l.
Proof. revert i. induction l as [|h t IH]; intros [|i]; cbn; auto. now rewrite IH. Qed.
Lemma upd_upd {A} (l : list A) i x y : upd (upd l i x) i y = upd l i y.
Proof. revert i. induction l as [|h t IH]; intros [|i]; cbn; auto. now rewrite IH. Qed.

(** f becomes empty: the second half of f = nullptr. *)
Lemma null_ok n f s s1 a1 : Emptied n f s s1 -> f < nf -> rank f < n -> agree (less (lt_ n) f) s1 a1 -> nth f a1 None = None ->
  exists s2, set_impl s1 f PNull = Ok s2 /\ Post (lt_ n) (lt_ n) s s2 /\ agree (lt_ n) s2 a1 /\ log s2 = log s1.
Proof.
  intros HE Hf Hr Ha Hn. assert (HI := p_inv _ _ _ _ (e_post _ _ _ _ HE)).
  assert (Hlf : f < length (fns s1)) by (rewrite (i_len _ _ HI); assumption).
  destruct (nth_error (fns s1) f) as [x|] eqn:Hx; [|apply nth_error_None in Hx; lia].
  unfold set_impl, get. rewrite (slot_get_ok _ _ _ Hx). cbn [bind]. eexists. split; [reflexivity|].
  set (s2 := World (objs s1) (upd (fns s1) f (Fn PNull (buf x))) (log s1)).
  assert (E2 : s2 = World (objs s1 ++ []) (upd (fns s1) f (Fn PNull (buf x))) (log s1)) by (unfold s2; now rewrite app_nil_r).
  assert (Hc : nth_error (fns s2) f = Some (Fn PNull (buf x))) by (cbn; now apply nth_error_upd_eq).
  assert (Hh : holds s2 f = None) by (eapply holds_null; eauto).
  assert (Hnp : forall i, ~ points s2 f i).
  { intros i (z & Hz & Q). rewrite Hc in Hz. injection Hz as <-. destruct Q as [?|[? ?]]; discriminate. }
  destruct (refill n f s s1 (Fn PNull (buf x)) [] (log s1) a1 HE Hf Hr) as [HP HA]; rewrite <- ?E2; auto.
  - exists (Fn PNull (buf x)). split; auto. cbn. intros i Hi. apply (e_free _ _ _ _ HE x Hx i Hi).
  - intros i Q. destruct (Hnp i Q).
  - intros i. rewrite app_nil_r. lia.
  - rewrite <- E2 in HP, HA. split; auto. split; auto. rewrite Hh in HA. rewrite <- Hn, upd_same in HA. exact HA.
Qed.

(** f gets a new callable. *)
Lemma construct_ok n f s s1 a1 c m : Emptied n f s s1 -> f < nf -> rank f < n -> crank c <= rank f -> agree (less (lt_ n) f) s1 a1 ->
  exists s2, construct s1 f (inline c) c m = Ok s2 /\ Post (lt_ n) (lt_ n) s s2 /\ agree (lt_ n) s2 (upd a1 f (Some (c, m))) /\
    log s2 = log s1 /\ objs s2 = objs s1 ++ [Obj c m Alive] /\ (forall g, g <> f -> nth_error (fns s2) g = nth_error (fns s1) g).
Proof.
  intros HE Hf Hr Hc Ha. assert (HI := p_inv _ _ _ _ (e_post _ _ _ _ HE)).
  assert (Hlf : f < length (fns s1)) by (rewrite (i_len _ _ HI); assumption).
  destruct (nth_error (fns s1) f) as [x|] eqn:Hx; [|apply nth_error_None in Hx; lia].
  assert (Hfree := e_free _ _ _ _ HE x Hx).
  set (x' := if inline c then Fn PIn (Some (length (objs s1))) else Fn (PHeap (length (objs s1))) (buf x)).
  set (s2 := World (objs s1 ++ [Obj c m Alive]) (upd (fns s1) f x') (log s1)).
  assert (Ec : construct s1 f (inline c) c m = Ok s2).
  { unfold construct, s2, x', get. destruct (inline c).
    - rewrite (slot_get_ok _ _ _ Hx). cbn [bind]. destruct (buf x) as [i|] eqn:Eb; cbn [bind]; auto.
      destruct (Hfree i Eb) as (o & Ho & D). rewrite (slot_get_ok _ _ _ Ho). cbn [bind]. now rewrite D.
    - rewrite (slot_get_ok _ _ _ Hx). reflexivity. }
  assert (Hcf : nth_error (fns s2) f = Some x') by (cbn; now apply nth_error_upd_eq).
  assert (Hno : nth_error (objs s2) (length (objs s1)) = Some (Obj c m Alive)).
  { cbn. rewrite nth_error_app2, Nat.sub_diag by lia. reflexivity. }
  assert (Hpt : points s2 f (length (objs s1))).
  { exists x'. split; auto. unfold x'. destruct (inline c); cbn; auto. }
  assert (Hpo : forall i, points s2 f i -> i = length (objs s1)).
  { intros i (z & Hz & Q). rewrite Hcf in Hz. injection Hz as <-. unfold x' in Q. destruct (inline c); cbn in Q.
    - destruct Q as [?|[_ [= ->]]]; congruence.
    - destruct Q as [[= ->]|[? ?]]; congruence. }
  exists s2. split; [exact Ec|].
  destruct (refill n f s s1 x' [Obj c m Alive] (log s1) a1 HE Hf Hr) as [HP HA]; fold s2; auto.
  - exists x'. split; auto.
    assert (Hl : live s2 f (length (objs s1)) (inline c)) by (eexists; split; [exact Hno|auto]).
    unfold x'. destruct (inline c) eqn:Ei; cbn; eauto. split; auto.
    intros i Hi. destruct (Hfree i Hi) as (o & Ho & D). exists o. split; auto. cbn. rewrite nth_error_app_old; auto. apply nth_error_Some. congruence.
  - intros i Q. rewrite (Hpo i Q). lia.
  - intros i Q. rewrite app_length in Q. cbn in Q. replace i with (length (objs s1)) by lia. exact Hpt.
  - split; [exact HP|]. split; [|split; [reflexivity|split; [reflexivity|]]].
    + fold s2 in HA. rewrite (holds_points s2 f _ _ Hpt Hno) in HA. exact HA.
    + intros g Hg. cbn. apply nth_error_upd_ne. auto.
Qed.

(** The temporary of f = C(...). *)
Lemma temp_ok n s a c : (forall r, r < n -> RunOK r) -> crank c < n -> Inv (lt_ n) s -> agree (lt_ n) s a ->
  exists F s' e a', (forall fuel, F <= fuel -> kill dtor (exec fuel) (World (objs s ++ [Obj c false Alive]) (fns s) (log s)) (length (objs s)) = Ok s') /\
    log s' = rev e ++ log s /\ drops a (c, false) e a' /\ Keep (lt_ n) s a s' a'.
Proof.
  intros IH Hc HI Ha. set (s1 := World (objs s ++ [Obj c false Alive]) (fns s) (log s)). set (i := length (objs s)).
  assert (Hold : forall j o, nth_error (objs s) j = Some o -> nth_error (objs s1) j = Some o).
  { intros j o E. cbn. rewrite nth_error_app_old; auto. apply nth_error_Some. congruence. }
  assert (Hoi : nth_error (objs s1) i = Some (Obj c false Alive)).
  { cbn. unfold i. rewrite nth_error_app2, Nat.sub_diag by lia. reflexivity. }
  assert (Hno : ~ own (lt_ n) s1 i).
  { intros (f & Hf & Q). assert (R := i_rng _ _ HI f i Q). unfold i in R. lia. }
  assert (HI1 : Inv (lt_ n) s1).
  { constructor.
    - apply (i_len _ _ HI).
    - intros f Hf Hfn. apply (good_cell s s1); [reflexivity|exact Hold|]. now apply (i_good _ _ HI).
    - apply (i_sep _ _ HI).
    - intros f j Q. cbn. rewrite app_length. assert (R := i_rng _ _ HI f j Q). lia. }
  assert (Ha1 : agree (lt_ n) s1 a).
  { split; [apply Ha|]. intros f Hf Hfn. rewrite (proj2 Ha f Hf Hfn). symmetry. apply holds_cell; auto.
    intros j Q. cbn. apply nth_error_app_old. apply (i_rng _ _ HI f j Q). }
  destruct (kill_ok (lt_ n) s1 a i (Obj c false Alive)) as (F & s2 & e & a' & H1 & H2 & H3 & (HP & HA & HO) & H5); auto.
  { intros f Hf. unfold lt_ in *. cbn in *. lia. }
  cbn [cls moved] in *. set (s0 := note (set_obj s1 i (Obj c false Dying)) (Dropped c false)) in *.
  set (s3 := set_obj s2 i (Obj c false Dead)).
  assert (Hl0 : length (objs s0) = S (length (objs s))) by (cbn; rewrite upd_length, app_length; cbn; lia).
  assert (Hl2 := p_len _ _ _ _ HP).
  assert (Hil : i < length (objs s2)) by (unfold i; lia).
  assert (Hno2 : ~ own (lt_ n) s2 i).
  { intros Q. destruct (p_new _ _ _ _ HP i Q) as [A|A]; [exact (Hno A)|unfold i in A; lia]. }
  assert (Hk : forall j, j <> i -> nth_error (objs s3) j = nth_error (objs s2) j).
  { intros j Hj. cbn. apply nth_error_upd_ne. auto. }
  assert (Hk0 : forall j, j < length (objs s) -> nth_error (objs s0) j = nth_error (objs s) j).
  { intros j Hj. cbn. rewrite nth_error_upd_ne by (unfold i; lia). now apply nth_error_app_old. }
  exists F, s3, e, a'. split; [exact H1|]. split; [exact H2|]. split; [exact H3|]. split; [|split].
  - constructor.
    + apply inv_set_obj; auto. { apply (p_inv _ _ _ _ HP). } intros (o2 & E & D). rewrite H5 in E. injection E as <-. discriminate.
    + intros g Hg. apply (p_cells _ _ _ _ HP g Hg).
    + cbn. rewrite upd_length. lia.
    + intros j Hj Hn. rewrite Hk by (unfold i; lia). rewrite (p_objs _ _ _ _ HP j); [now apply Hk0|lia|exact Hn].
    + intros j o E D. assert (j < length (objs s)) by (apply nth_error_Some; congruence).
      rewrite Hk by (unfold i; lia). eapply (p_dead _ _ _ _ HP); eauto. now rewrite Hk0.
    + intros j Hj. destruct (p_new _ _ _ _ HP j Hj) as [A|A]; auto. right. lia.
    + intros j Hj Q. destruct (Nat.eq_dec j i) as [->|Hji].
      * left. eexists. split; [cbn; apply nth_error_upd_eq; exact Hil|reflexivity].
      * destruct (p_acc _ _ _ _ HP j) as [(o & E & D)|A]; auto.
        -- cbn in Hj. now rewrite upd_length in Hj.
        -- destruct Q as [Q|Q]; [auto|right; unfold i in Hji; lia].
        -- left. exists o. split; auto. now rewrite Hk.
  - apply agree_set_obj; auto.
  - exact HO.
Qed.

(** Marking the callable of [g] as moved from. *)
Lemma mark_ok n s a g i o : Inv (lt_ n) s -> agree (lt_ n) s a -> g < nf -> rank g < n -> points s g i -> nth_error (objs s) i = Some o ->
  let s' := set_obj s i (Obj (cls o) true Alive) in
  Keep (lt_ n) s a s' (upd a g (Some (cls o, true))).
Proof.
  intros HI Ha Hg Hr Hp Ho s'.
  destruct (good_points _ _ _ _ HI Hr Hp) as (o' & Ho' & Al & Hc). rewrite Ho in Ho'. injection Ho' as <-.
  assert (Hil : i < length (objs s)) by (apply nth_error_Some; congruence).
  assert (Hk : forall j, j <> i -> nth_error (objs s') j = nth_error (objs s) j).
  { intros j Hj. cbn. apply nth_error_upd_ne. auto. }
  assert (Hi : nth_error (objs s') i = Some (Obj (cls o) true Alive)) by (cbn; now apply nth_error_upd_eq).
  assert (Hd : forall j, dead s j -> j <> i).
  { intros j (o2 & E & D) ->. congruence. }
  assert (Hlive : forall f j b, live s f j b -> live s' f j b).
  { intros f j b (o2 & E & Q1 & Q2 & Q3). destruct (Nat.eq_dec j i) as [->|Hj].
    - rewrite Ho in E. injection E as <-. exists (Obj (cls o) true Alive). auto.
    - exists o2. rewrite Hk; auto. }
  assert (Hfr : forall x, free s x -> free s' x).
  { intros x Q j Hj. assert (Hji := Hd j (Q j Hj)). destruct (Q j Hj) as (o2 & E & D). exists o2. rewrite Hk; auto. }
  split; [constructor|split].
  - constructor.
    + apply (i_len _ _ HI).
    + intros f Hf Hfn. destruct (i_good _ _ HI f Hf Hfn) as (x & Hx & Q). exists x. split; auto.
      destruct (impl x); auto.
      * destruct Q as (j & ? & ?). eauto.
      * destruct Q. auto.
    + apply (i_sep _ _ HI).
    + intros f j Q. cbn. rewrite upd_length. apply (i_rng _ _ HI f j Q).
  - reflexivity.
  - cbn. rewrite upd_length. lia.
  - intros j Hj Hn. apply Hk. intros ->. apply Hn. exists g. auto.
  - intros j o2 E D. rewrite Hk; auto. apply Hd. exists o2. auto.
  - intros j Q. left. exact Q.
  - intros j Hj [Q|Q].
    + right. exact Q.
    + cbn in Hj. rewrite upd_length in Hj. lia.
  - split; [rewrite upd_length; apply Ha|]. intros f Hf Hfn. destruct (Nat.eq_dec f g) as [->|Hfg].
    + rewrite nth_upd_eq by (rewrite (proj1 Ha); assumption). symmetry.
      assert (Hp' : points s' g i) by exact Hp. apply (holds_points s' g i _ Hp' Hi).
    + rewrite nth_upd_ne by auto. rewrite (proj2 Ha f Hf Hfn). symmetry. apply holds_cell; auto.
      intros j Q. apply Hk. intros ->. apply (i_sep _ _ HI f g i); auto.
  - intros f Hf. apply nth_upd_ne. intros ->. auto.
Qed.

Lemma keep_trans P s a s1 a1 s2 a2 : Keep P s a s1 a1 -> Keep P s1 a1 s2 a2 -> Keep P s a s2 a2.
Proof.
  intros (H1 & H2 & H3) (G1 & G2 & G3). split; [eapply post_trans_same; eauto|]. split; auto.
  intros f Hf. rewrite G3, H3; auto.
Qed.
Lemma this_keep P this s s' : Post P P s s' -> this_ok P this s -> this_ok P this s'.
Proof.
  intros HP Ht i E. destruct (Ht i E) as [(o & Ho & D) Hn].
  assert (Hi : i < length (objs s)) by (apply nth_error_Some; congruence). split.
  - exists o. split; auto. rewrite (p_objs _ _ _ _ HP); auto.
  - intros Q. destruct (p_new _ _ _ _ HP i Q); auto. lia.
Qed.
Lemma outside n (a : store) f v g : f < nf -> rank f < n -> ~ lt_ n g -> nth g (upd a f v) None = nth g a None.
Proof. intros Hf Hr Hg. apply nth_upd_ne. intros ->. auto. Qed.

Lemma step_ok n : (forall r, r < n -> RunOK r) -> forall k this s a,
  ranked rank crank nf n k -> Inv (lt_ n) s -> this_ok (lt_ n) this s -> agree (lt_ n) s a ->
  exists F s' e a', (forall fuel, F <= fuel -> step inline body dtor (exec fuel) this s k = Ok s') /\
    log s' = rev e ++ log s /\ one a k e a' /\ Keep (lt_ n) s a s' a'.
Proof.
  intros IH k this s a Hk HI Ht Ha. destruct k as [f|f c tmp|f g|f g|f|f|]; cbn [ranked] in Hk.
  - (* Clear *)
    destruct Hk as [Hf Hr].
    destruct (destroy_ok n s a f IH HI Ha Hf Hr) as (F & s1 & e & a1 & H1 & HE & H2 & H3 & H4 & H5 & H6).
    destruct (null_ok n f s s1 a1 HE Hf Hr H4 H5) as (s2 & G1 & G2 & G3 & G4).
    exists F, s2, e, a1. split; [|split; [|split; [|split; [|split]]]]; auto.
    + intros fuel HF. cbn [step]. unfold zap. rewrite (H1 fuel HF). cbn [bind]. exact G1.
    + now rewrite G4.
    + now constructor.
  - (* Set_ *)
    destruct Hk as (Hf & Hr & Hc).
    destruct (destroy_ok n s a f IH HI Ha Hf Hr) as (F & s1 & e & a1 & H1 & HE & H2 & H3 & H4 & H5 & H6).
    destruct (construct_ok n f s s1 a1 c false HE Hf Hr Hc H4) as (s2 & G1 & G2 & G3 & G4 & _).
    assert (HK : Keep (lt_ n) s a s2 (upd a1 f (Some (c, false)))).
    { split; auto. split; auto. intros g Hg. rewrite (outside n) by assumption. auto. }
    destruct tmp.
    + destruct (temp_ok n s2 (upd a1 f (Some (c, false))) c IH ltac:(lia) (p_inv _ _ _ _ G2) G3) as (F2 & s3 & e2 & a2 & K1 & K2 & K3 & K4).
      exists (max F F2), s3, (e ++ e2), a2. split; [|split; [|split]].
      * intros fuel HF. cbn [step]. rewrite (H1 fuel) by lia. cbn [bind]. rewrite G1. cbn [bind]. apply K1. lia.
      * rewrite K2, G4, H2, rev_app_distr, app_assoc. reflexivity.
      * econstructor; eauto.
      * eapply keep_trans; eauto.
    + exists F, s2, e, (upd a1 f (Some (c, false))). split; [|split; [|split]]; auto.
      * intros fuel HF. cbn [step]. rewrite (H1 fuel HF). cbn [bind]. rewrite G1. reflexivity.
      * now rewrite G4.
      * now constructor.
  - (* Copy *)
    destruct Hk as (Hf & Hg & Hfg & Hr & Hrg).
    destruct (destroy_ok n s a f IH HI Ha Hf Hr) as (F & s1 & e & a1 & H1 & HE & H2 & H3 & H4 & H5 & H6).
    assert (HI1 := p_inv _ _ _ _ (e_post _ _ _ _ HE)).
    assert (HPg : less (lt_ n) f g) by (split; [unfold lt_; lia|auto]).
    destruct (i_good _ _ HI1 g HPg Hg) as (y & Hy & Hgood).
    assert (Hgetg : get s1 g = Ok y) by (apply slot_get_ok; exact Hy).
    assert (Hcopy : exists s2, assign s1 f g = Ok s2 /\ Post (lt_ n) (lt_ n) s s2 /\ agree (lt_ n) s2 (upd a1 f (nth g a1 None)) /\ log s2 = log s1).
    { unfold assign. rewrite Hgetg. cbn [bind]. destruct (impl y) eqn:Ey.
      - assert (Hh : nth g a1 None = None) by (rewrite (proj2 H4 g HPg Hg); eapply holds_null; eauto).
        rewrite Hh, <- H5, upd_same. apply (null_ok n f s s1 a1 HE Hf Hr H4 H5).
      - destruct Hgood as (i & Hb & o & Ho & Al & Hc & Hin). unfold deref. rewrite Ey, Hb. cbn [bind].
        unfold alive. rewrite (slot_get_ok _ _ _ Ho). cbn [bind]. rewrite Al. cbn [bind].
        assert (Hh : nth g a1 None = Some (cls o, moved o)).
        { rewrite (proj2 H4 g HPg Hg). eapply holds_points; eauto. exists y. auto. }
        rewrite Hh, <- Hin. destruct (construct_ok n f s s1 a1 (cls o) (moved o) HE Hf Hr ltac:(lia) H4) as (s2 & ? & ? & ? & ? & _).
        exists s2. auto.
      - destruct Hgood as (Hfr & o & Ho & Al & Hc & Hin).
        unfold alive. rewrite (slot_get_ok _ _ _ Ho). cbn [bind]. rewrite Al. cbn [bind].
        assert (Hh : nth g a1 None = Some (cls o, moved o)).
        { rewrite (proj2 H4 g HPg Hg). eapply holds_points; eauto. exists y. auto. }
        rewrite Hh, <- Hin. destruct (construct_ok n f s s1 a1 (cls o) (moved o) HE Hf Hr ltac:(lia) H4) as (s2 & ? & ? & ? & ? & _).
        exists s2. auto. }
    destruct Hcopy as (s2 & G1 & G2 & G3 & G4).
    exists F, s2, e, (upd a1 f (nth g a1 None)). split; [|split; [|split; [|split; [|split]]]]; auto.
    + intros fuel HF. cbn [step]. rewrite (H1 fuel HF). cbn [bind]. exact G1.
    + now rewrite G4.
    + now constructor.
    + intros h Hh. rewrite (outside n) by assumption. auto.
  - (* Move *)
    destruct Hk as (Hf & Hg & Hfg & Hr & Hrg).
    destruct (destroy_ok n s a f IH HI Ha Hf Hr) as (F & s1 & e & a1 & H1 & HE & H2 & H3 & H4 & H5 & H6).
    assert (HI1 := p_inv _ _ _ _ (e_post _ _ _ _ HE)).
    assert (HPg : less (lt_ n) f g) by (split; [unfold lt_; lia|auto]).
    assert (Hrg' : rank g < n) by lia.
    destruct (i_good _ _ HI1 g HPg Hg) as (y & Hy & Hgood).
    assert (Hgetg : get s1 g = Ok y) by (apply slot_get_ok; exact Hy).
    destruct (impl y) eqn:Ey.
    + assert (Hh : nth g a1 None = None) by (rewrite (proj2 H4 g HPg Hg); eapply holds_null; eauto).
      destruct (null_ok n f s s1 a1 HE Hf Hr H4 H5) as (s2 & G1 & G2 & G3 & G4).
      exists F, s2, e, a1. split; [|split; [|split; [|split; [|split]]]]; auto.
      * intros fuel HF. cbn [step]. rewrite (H1 fuel HF). cbn [bind]. unfold move. rewrite Hgetg. cbn [bind]. rewrite Ey. exact G1.
      * now rewrite G4.
      * now apply m_move_none.
    + (* small callable *)
      destruct Hgood as (i & Hb & o & Ho & Al & Hc & Hin).
      assert (Hpg : points s1 g i) by (exists y; auto).
      assert (Hh : nth g a1 None = Some (cls o, moved o)) by (rewrite (proj2 H4 g HPg Hg); eapply holds_points; eauto).
      destruct (construct_ok n f s s1 a1 (cls o) (moved o) HE Hf Hr ltac:(lia) H4) as (s2 & G1 & G2 & G3 & G4 & G5 & G6).
      rewrite Hin in G1.
      assert (HK2 : Keep (lt_ n) s a s2 (upd a1 f (Some (cls o, moved o)))).
      { split; auto. split; auto. intros h Hh'. rewrite (outside n) by assumption. auto. }
      assert (Hpg2 : points s2 g i) by (eapply points_cell; [|exact Hpg]; symmetry; apply G6; auto).
      assert (Ho2 : nth_error (objs s2) i = Some o).
      { rewrite G5. rewrite nth_error_app_old; auto. apply nth_error_Some. congruence. }
      assert (HM := mark_ok n s2 _ g i o (p_inv _ _ _ _ G2) G3 Hg Hrg' Hpg2 Ho2). cbn zeta in HM.
      set (s3 := set_obj s2 i (Obj (cls o) true Alive)) in *.
      destruct HM as (HP3 & HA3 & HO3).
      destruct (destroy_ok n s3 _ g IH (p_inv _ _ _ _ HP3) HA3 Hg Hrg') as (F2 & s4 & e2 & a4 & K1 & KE & K2 & K3 & K4 & K5 & K6).
      destruct (null_ok n g s3 s4 a4 KE Hg Hrg' K4 K5) as (s5 & L1 & L2 & L3 & L4).
      exists (max F F2), s5, (e ++ e2), a4. split; [|split; [|split]].
      * intros fuel HF. cbn [step]. rewrite (H1 fuel) by lia. cbn [bind]. unfold move. rewrite Hgetg. cbn [bind]. rewrite Ey.
        unfold deref. rewrite Ey, Hb. cbn [bind]. unfold alive. rewrite (slot_get_ok _ _ _ Ho). cbn [bind]. rewrite Al. cbn [bind].
        rewrite G1. cbn [bind]. fold s3. unfold zap. rewrite (K1 fuel) by lia. cbn [bind]. exact L1.
      * rewrite L4, K2. change (log s3) with (log s2). rewrite G4, H2, rev_app_distr, app_assoc. reflexivity.
      * assert (Hlg : g < length (upd a1 f (Some (cls o, moved o)))) by (rewrite upd_length, (proj1 H4); exact Hg).
        inversion K3 as [? ? Q|? ? v ? ? Q1 Q2]; subst.
        -- rewrite nth_upd_eq in Q by assumption. discriminate.
        -- rewrite nth_upd_eq in Q1 by assumption. injection Q1 as <-. rewrite upd_upd in Q2.
           eapply m_move_small; eauto.
      * eapply keep_trans; [exact HK2|]. eapply keep_trans; [split; [exact HP3|split; [exact HA3|exact HO3]]|].
        split; [exact L2|]. split; [exact L3|]. exact K6.
    + (* big callable *)
      assert (Hlf : f < length (fns s1)) by (rewrite (i_len _ _ HI1); assumption).
      destruct (nth_error (fns s1) f) as [x|] eqn:Hx; [|apply nth_error_None in Hx; lia].
      destruct (steal n f g s s1 x y id a1 (log s1) HE Hf Hg Hfg Hr Hrg Hx Hy Ey H4) as (G2 & o & Ho & Hin & Hh & HA).
      eexists F, _, e, _. split; [|split; [|split; [|split; [exact G2|split; [exact HA|]]]]].
      * intros fuel HF. cbn [step]. rewrite (H1 fuel HF). cbn [bind]. unfold move. rewrite Hgetg. cbn [bind]. rewrite Ey.
        unfold set_impl, get. rewrite (slot_get_ok _ _ _ Hx). cbn [bind fns objs log].
        assert (Hy2 : nth_error (upd (fns s1) f (Fn (PHeap id) (buf x))) g = Some y) by (rewrite nth_error_upd_ne by auto; exact Hy).
        rewrite (slot_get_ok _ _ _ Hy2). reflexivity.
      * exact H2.
      * eapply m_move_big; eauto.
      * intros h Hh'. rewrite !(outside n) by assumption. auto.
  - (* Call *)
    destruct Hk as [Hf Hr]. destruct (i_good _ _ HI f Hr Hf) as (x & Hx & Hg).
    assert (Hget : get s f = Ok x) by (apply slot_get_ok; assumption).
    assert (Hcase : impl x = PNull \/ exists i o, deref x = Ok i /\ impl x <> PNull /\ points s f i /\
       nth_error (objs s) i = Some o /\ st o = Alive /\ crank (cls o) <= rank f).
    { unfold deref, points. destruct (impl x) eqn:Ei; auto; right.
      - destruct Hg as (i & Hb & o & E & Hg). rewrite Hb. exists i, o. repeat split; try tauto; try congruence. exists x. auto.
      - destruct Hg as (Hfr & o & E & Hg). exists id, o. repeat split; try tauto; try congruence. exists x. auto. }
    destruct Hcase as [En|(i & o & Hd & Hne & Hp & Ho & Al & Hc)].
    + exists 0, s, [], a. split; [|split; [|split; [|split; [|split]]]]; auto.
      * intros fuel _. cbn [step]. rewrite Hget. cbn [bind]. now rewrite En.
      * apply m_call_none. rewrite (proj2 Ha f Hr Hf). eapply holds_null; eauto.
      * now apply post_refl.
    + destruct (run_lift (crank (cls o)) (lt_ n)) with (ks := body (cls o)) (this := Some i) (s := note s (Called (cls o))) (a := a)
        as (F & s1 & e & a1 & H1 & H2 & H3 & H4); auto.
      { apply IH. lia. }
      { intros g. unfold lt_. lia. }
      { now apply inv_note. }
      { intros j [= <-]. split; [exists o; split; [exact Ho|congruence]|]. intros (g & Hg1 & Q).
        apply (i_sep _ _ HI f g i); auto. intros <-. unfold lt_ in Hg1. lia. }
      exists F, s1, (Called (cls o) :: e), a1. split; [|split; [|split]].
      * intros fuel HF. cbn [step]. rewrite Hget. cbn [bind]. destruct (impl x) eqn:Ei; try congruence; rewrite Hd; cbn [bind];
          unfold alive; rewrite (slot_get_ok _ _ _ Ho); cbn [bind]; rewrite Al; cbn [bind]; auto.
      * rewrite H2. cbn. now rewrite <- app_assoc.
      * econstructor; eauto. rewrite (proj2 Ha f Hr Hf). eapply holds_points; eauto.
      * destruct H4 as (A1 & A2 & A3). split; [|split; auto]. destruct A1. constructor; auto.
  - (* Test *)
    destruct Hk as [Hf Hr]. destruct (i_good _ _ HI f Hr Hf) as (x & Hx & Hg).
    eexists 0, _, [_], a. split; [|split; [|split; [|split; [|split]]]].
    + intros fuel _. cbn [step]. unfold get. rewrite (slot_get_ok _ _ _ Hx). reflexivity.
    + instantiate (1 := Tested (is_set a f)). cbn. f_equal. f_equal. unfold is_set. rewrite (proj2 Ha f Hr Hf).
      destruct (impl x) eqn:Ei.
      * rewrite (holds_null s f x); auto.
      * destruct Hg as (i & Hb & o & Ho & _). rewrite (holds_points s f i o); auto. exists x. auto.
      * destruct Hg as (_ & o & Ho & _). rewrite (holds_points s f id o); auto. exists x. auto.
    + constructor.
    + assert (Q := post_refl (lt_ n) s HI). destruct Q. constructor; auto. now apply inv_note.
    + exact Ha.
    + auto.
  - (* Use *)
    exists 0, s, [], a. split; [|split; [|split; [|split; [|split]]]]; auto.
    + intros fuel _. cbn [step]. destruct this as [i|]; auto. destruct (Ht i eq_refl) as [(o & Ho & D) _].
      rewrite (slot_get_ok _ _ _ Ho). cbn [bind]. destruct (st o); auto. congruence.
    + constructor.
    + now apply post_refl.
Qed.

Lemma runs_ok n : RunOK n.
Proof.
  induction n as [n IH] using lt_wf_ind. intros ks Hks.
  induction Hks as [|k r Hk Hr IHr]; intros this s a HI Ht Ha.
  - exists 1, s, [], a. split; [|split; [|split; [|split; [|split]]]]; auto.
    + intros [|fuel] HF; [lia|]. reflexivity.
    + now apply post_refl.
    + constructor.
  - destruct (step_ok n IH k this s a Hk HI Ht Ha) as (F & s1 & e1 & a1 & H1 & H2 & H3 & (H4 & H5 & H6)).
    destruct (IHr this s1 a1 (p_inv _ _ _ _ H4) (this_keep _ _ _ _ H4 Ht) H5) as (F2 & s2 & e2 & a2 & G1 & G2 & G3 & G4 & G5 & G6).
    exists (S (max F F2)), s2, (e1 ++ e2), a2. split; [|split; [|split; [|split; [|split]]]].
    + intros [|fuel] HF; [lia|]. cbn [FnReenterModel.exec]. rewrite (H1 fuel) by lia. cbn [bind]. apply G1. lia.
    + eapply post_trans_same; eauto.
    + rewrite G3, H2, rev_app_distr, app_assoc. reflexivity.
    + econstructor; eauto.
    + exact G5.
    + intros f Hf. rewrite G6, H6; auto.
Qed.
End Proofs.
