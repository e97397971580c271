(** C116: Functions whose callables use Functions themselves. *)
From Verif Require Import Base FnReenterModel FnReenterSpec FnReenterProofs.

(** C116.  Under the ranking discipline every program ends, without undefined behaviour, having done what the ideal program does:
    same calls, tests and destructions in the same order, same contents at the end; and every callable that was ever constructed
    is destroyed or held, alive, by exactly one Function. *)
Theorem C116_ranked_programs_partial inline body dtor rank crank nf prog :
  disciplined body dtor rank crank nf prog ->
  exists F s events,
    (forall fuel, F <= fuel -> run inline body dtor fuel nf prog = Ok s) /\
    log s = rev events /\
    means inline body dtor (repeat None nf) prog events (contents s) /\
    (forall i o, nth_error (objs s) i = Some o ->
       st o = Dead /\ (forall f, ~ points s f i) \/
       st o = Alive /\ exists f, points s f i /\ forall g, points s g i -> g = f).
Proof.
  intros ((r & Hp) & Hb & Hd).
  assert (Hnp : forall f i, ~ points (start nf) f i).
  { intros f i (x & Hx & H). cbn in Hx. apply nth_error_In, repeat_spec in Hx. subst x.
    destruct H as [H|[H _]]; discriminate. }
  assert (HI : Inv inline rank crank nf (fun _ => True) (start nf)).
  { constructor.
    - cbn. apply repeat_length.
    - intros f _ Hf. exists (Fn PNull None). split; [cbn; apply nth_error_repeat; exact Hf|]. cbn. intros i. discriminate.
    - intros f g i _ _ H. destruct (Hnp _ _ H).
    - intros f i H. destruct (Hnp _ _ H). }
  destruct (runs_ok inline body dtor rank crank nf Hb Hd r prog Hp None (start nf) (repeat None nf))
    as (F & s & e & a & H1 & H2 & H3 & H4 & H5 & H6).
  - apply (inv_sub inline rank crank nf (fun _ => True)); auto.
  - intros i E. discriminate.
  - split; [apply repeat_length|]. intros f Hf Hn. rewrite nth_repeat. symmetry.
    eapply holds_null; [cbn; apply nth_error_repeat; exact Hn|reflexivity].
  - exists F, s, e. split; [exact H1|]. split; [rewrite H3; cbn; apply app_nil_r|].
    assert (HIs : Inv inline rank crank nf (fun _ => True) s).
    { eapply p_inv. eapply (post_lift inline rank crank nf (fun _ => True)); [|auto|exact HI|exact H2].
      intros f. unfold lt_. lia. }
    split.
    + replace (contents s) with a; [exact H4|]. unfold contents. rewrite (i_len _ _ _ _ _ _ HIs).
      apply nth_ext with (d := None) (d' := None).
      * rewrite map_length, seq_length. apply H5.
      * intros f Hf. rewrite (proj1 H5) in Hf.
        rewrite (nth_indep (map (holds s) (seq 0 nf)) None (holds s 0)) by (rewrite map_length, seq_length; exact Hf).
        rewrite map_nth, seq_nth by exact Hf. cbn [plus].
        assert (Hdec : lt_ rank r f \/ ~ lt_ rank r f) by (unfold lt_; lia). destruct Hdec as [L|L].
        -- apply H5; assumption.
        -- rewrite H6 by exact L. rewrite nth_repeat. symmetry.
           eapply holds_null; [rewrite (p_cells _ _ _ _ _ _ _ _ H2 f L); cbn; apply nth_error_repeat; exact Hf|reflexivity].
    + intros i o Ho. assert (Hi : i < length (objs s)) by (apply nth_error_Some; congruence).
      destruct (p_acc _ _ _ _ _ _ _ _ H2 i Hi) as [D|(f & Hf & Q)].
      * right. cbn. lia.
      * left. destruct D as (o' & E & D). rewrite Ho in E. injection E as <-. split; auto.
        intros f Q. destruct (good_points _ _ _ _ _ _ _ _ HIs I Q) as (o' & E & A & _). congruence.
      * right. destruct (good_points _ _ _ _ _ _ _ _ HIs I Q) as (o' & E & A & _). rewrite Ho in E. injection E as <-.
        split; auto. exists f. split; auto. intros g Qg. destruct (Nat.eq_dec g f) as [|Hne]; auto.
        destruct (i_sep _ _ _ _ _ _ HIs g f i); auto.
Qed.

(** The commands that replace the contents of [f]. *)
Definition replaces (f : nat) (k : cmd) : Prop :=
  match k with
  | Clear g | Set_ g _ _ | Copy g _ | Move g _ => g = f
  | _ => False
  end.

Section Refuted.
Variable inline : nat -> bool.
Variable body : nat -> list cmd.
Variable dtor : nat -> bool -> list cmd.
Notation exec := (exec inline body dtor).
Notation step := (step inline body dtor).

Lemma destroy_points ex s f i o : points s f i -> nth_error (objs s) i = Some o ->
  destroy dtor ex s f = kill dtor ex s i.
Proof.
  intros (x & Hx & Hp) Ho. unfold destroy, get. rewrite (slot_get_ok _ _ _ Hx). cbn [bind]. unfold deref.
  destruct Hp as [E|[E Eb]]; rewrite E; rewrite ?Eb; reflexivity.
Qed.
Lemma replace_kill ex this s f i o k : replaces f k -> points s f i -> nth_error (objs s) i = Some o ->
  forall e, kill dtor ex s i = Fault e -> step ex this s k = Fault e.
Proof.
  intros Hk Hp Ho e He. destruct k; cbn in Hk; try contradiction; subst; cbn [FnReenterModel.step]; unfold zap;
    rewrite (destroy_points _ _ _ _ _ Hp Ho), He; reflexivity.
Qed.
Lemma kill_runs fuel s f i o k r e : points s f i -> nth_error (objs s) i = Some o -> st o = Alive ->
  dtor (cls o) (moved o) = k :: r ->
  (forall s', objs s' = upd (objs s) i (Obj (cls o) (moved o) Dying) -> fns s' = fns s ->
     step (exec fuel) (Some i) s' k = Fault e) ->
  kill dtor (exec (S fuel)) s i = Fault e.
Proof.
  intros Hp Ho Al Hd Hk. unfold kill. rewrite (slot_get_ok _ _ _ Ho). cbn [bind]. rewrite Al, Hd.
  cbn [FnReenterModel.exec]. rewrite Hk; reflexivity.
Qed.

(** C116 fails for a destructor that replaces the contents of the Function that is just getting rid of it: the callable is
    destroyed a second time, whatever the Function was being replaced with and whatever the destructor replaces it with. *)
Theorem C116_replaced_by_destructor_refuted fuel this s f i o k k' r :
  points s f i -> nth_error (objs s) i = Some o -> st o = Alive ->
  replaces f k -> dtor (cls o) (moved o) = k' :: r -> replaces f k' ->
  step (exec (S fuel)) this s k = Fault DoubleFree.
Proof.
  intros Hp Ho Al Hk Hd Hk'. eapply replace_kill; eauto. eapply kill_runs; eauto.
  intros s' E1 E2. assert (Hp' : points s' f i) by (unfold points in *; rewrite E2; exact Hp).
  assert (Ho' : nth_error (objs s') i = Some (Obj (cls o) (moved o) Dying)).
  { rewrite E1. apply nth_error_upd_eq. apply nth_error_Some. congruence. }
  eapply replace_kill; eauto. unfold kill. rewrite (slot_get_ok _ _ _ Ho'). reflexivity.
Qed.
(** C116 fails for a destructor that calls that Function: it is not empty yet, and the call goes to the callable under
    destruction. *)
Theorem C116_called_by_destructor_refuted fuel this s f i o k r :
  points s f i -> nth_error (objs s) i = Some o -> st o = Alive ->
  replaces f k -> dtor (cls o) (moved o) = Call f :: r ->
  step (exec (S fuel)) this s k = Fault UseAfterFree.
Proof.
  intros Hp Ho Al Hk Hd. eapply replace_kill; eauto. eapply kill_runs; eauto.
  intros s' E1 E2.
  assert (Ho' : nth_error (objs s') i = Some (Obj (cls o) (moved o) Dying)).
  { rewrite E1. apply nth_error_upd_eq. apply nth_error_Some. congruence. }
  destruct Hp as (x & Hx & Hp). cbn [FnReenterModel.step]. unfold get. rewrite E2, (slot_get_ok _ _ _ Hx). cbn [bind]. unfold deref, alive.
  destruct Hp as [E|[E Eb]]; rewrite E, ?Eb; cbn [bind]; rewrite (slot_get_ok _ _ _ Ho'); reflexivity.
Qed.
(** C116 fails for a callable that empties the Function it is called through and then uses its captures. *)
Theorem C116_self_clear_refuted fuel this s f i o r :
  points s f i -> nth_error (objs s) i = Some o -> st o = Alive ->
  body (cls o) = Clear f :: Use :: r -> dtor (cls o) (moved o) = [] ->
  step (exec (S (S fuel))) this s (Call f) = Fault UseAfterFree.
Proof.
  intros Hp Ho Al Hb Hd. set (s1 := note s (Called (cls o))).
  assert (Hp1 : points s1 f i) by exact Hp.
  assert (Hil : i < length (objs s)) by (apply nth_error_Some; congruence).
  cbn [FnReenterModel.step]. destruct Hp as (x & Hx & Hp). unfold get. rewrite (slot_get_ok _ _ _ Hx). cbn [bind]. unfold deref.
  assert (E : exists q, match impl x with PNull => Ok s | _ => q end = q /\
     q = (do i0 <- match impl x with PNull => Fault NullDeref | PIn => match buf x with Some i0 => Ok i0 | None => Fault Uninit end | PHeap i0 => Ok i0 end;
          do o0 <- alive s i0; exec (S (S fuel)) (Some i0) (note s (Called (cls o0))) (body (cls o0)))).
  { eexists. split; [|reflexivity]. destruct Hp as [Q|[Q _]]; rewrite Q; reflexivity. }
  destruct E as (q & E1 & E2). rewrite <- E2. rewrite E1, E2. clear q E1 E2.
  replace (match impl x with PNull => Fault NullDeref | PIn => match buf x with Some i0 => Ok i0 | None => Fault Uninit end | PHeap i0 => Ok i0 end)
    with (@Ok nat i) by (destruct Hp as [Q|[Q Qb]]; rewrite Q, ?Qb; reflexivity).
  cbn [bind]. unfold alive. rewrite (slot_get_ok _ _ _ Ho). cbn [bind]. rewrite Al. cbn [bind]. rewrite Hb. fold s1.
  cbn [FnReenterModel.exec FnReenterModel.step]. unfold zap. rewrite (destroy_points _ _ _ _ _ Hp1 Ho).
  unfold kill. change (objs s1) with (objs s). rewrite (slot_get_ok _ _ _ Ho). cbn [bind]. rewrite Al, Hd. cbn [FnReenterModel.exec bind].
  unfold set_impl, get. cbn [fns note set_obj]. change (fns s1) with (fns s). rewrite (slot_get_ok _ _ _ Hx). cbn [bind fns objs note set_obj].
  change (objs s1) with (objs s). rewrite (slot_get_ok _ i (Obj (cls o) (moved o) Dead)); [reflexivity|].
  apply nth_error_upd_eq. now rewrite upd_length.
Qed.
(** A callable that only empties its Function is fine: the one-shot callback. *)
Theorem C116_one_shot fuel this s f i o :
  points s f i -> nth_error (objs s) i = Some o -> st o = Alive ->
  body (cls o) = [Clear f] -> dtor (cls o) (moved o) = [] ->
  exists s', step (exec (S (S fuel))) this s (Call f) = Ok s' /\ holds s' f = None /\
    nth_error (objs s') i = Some (Obj (cls o) (moved o) Dead) /\
    log s' = Dropped (cls o) (moved o) :: Called (cls o) :: log s /\
    (forall g, g <> f -> nth_error (fns s') g = nth_error (fns s) g) /\
    (forall j, j <> i -> nth_error (objs s') j = nth_error (objs s) j).
Proof.
  intros Hp Ho Al Hb Hd. set (s1 := note s (Called (cls o))).
  assert (Hp1 : points s1 f i) by exact Hp.
  assert (Hil : i < length (objs s)) by (apply nth_error_Some; congruence).
  destruct Hp as (x & Hx & Hp).
  assert (Hfl : f < length (fns s)) by (apply nth_error_Some; congruence).
  assert (E : step (exec (S (S fuel))) this s (Call f) = exec (S (S fuel)) (Some i) s1 [Clear f]).
  { cbn [FnReenterModel.step]. unfold get. rewrite (slot_get_ok _ _ _ Hx). cbn [bind]. unfold deref, alive.
    destruct Hp as [E|[E Eb]]; rewrite E, ?Eb; cbn [bind]; rewrite (slot_get_ok _ _ _ Ho); cbn [bind]; rewrite Al; cbn [bind]; rewrite Hb; reflexivity. }
  rewrite E. cbn [FnReenterModel.exec FnReenterModel.step]. unfold zap. rewrite (destroy_points _ _ _ _ _ Hp1 Ho).
  unfold kill. change (objs s1) with (objs s). rewrite (slot_get_ok _ _ _ Ho). cbn [bind]. rewrite Al, Hd. cbn [FnReenterModel.exec bind].
  unfold set_impl, get. cbn [fns note set_obj]. change (fns s1) with (fns s). rewrite (slot_get_ok _ _ _ Hx). cbn [bind fns objs note set_obj log].
  eexists. split; [reflexivity|]. cbn [fns objs log]. split; [|split; [|split; [reflexivity|split]]].
  - eapply holds_null; [cbn; apply nth_error_upd_eq; exact Hfl|reflexivity].
  - apply nth_error_upd_eq. now rewrite upd_length.
  - intros g Hg. apply nth_error_upd_ne. auto.
  - intros j Hj. change (objs s1) with (objs s). rewrite !nth_error_upd_ne by auto. reflexivity.
Qed.
End Refuted.

Print Assumptions C116_ranked_programs_partial.
Print Assumptions C116_replaced_by_destructor_refuted.
Print Assumptions C116_called_by_destructor_refuted.
Print Assumptions C116_self_clear_refuted.
Print Assumptions C116_one_shot.

(** A disciplined program.  Function 2 (rank 2) holds a callable of class 1 whose body moves Function 1 into Function 0 and whose
    destructor calls Function 0; classes 0 and 2 are leaves, small and big. *)
Definition ex_inline (c : nat) := negb (c =? 2).
Definition ex_body (c : nat) := match c with 1 => [Test 0; Move 1 0; Use; Call 1] | _ => [Use] end.
Definition ex_dtor (c : nat) (m : bool) := match c, m with 1, false => [Call 1; Clear 1] | _, _ => [] end.
Definition ex_rank (f : nat) := match f with 2 | 3 => 2 | _ => 1 end.
Definition ex_crank (c : nat) := match c with 1 => 2 | _ => 0 end.
Definition ex_prog := [Set_ 0 2 true; Set_ 2 1 false; Call 2; Copy 3 2; Move 2 3; Set_ 0 0 false; Clear 2; Test 1; Test 0].
Example ex_disciplined : disciplined ex_body ex_dtor ex_rank ex_crank 4 ex_prog.
Proof.
  split; [exists 3|split].
  - repeat apply Forall_cons; try apply Forall_nil; cbn; lia.
  - intros [|[|c]]; cbn; repeat apply Forall_cons; try apply Forall_nil; cbn; lia.
  - intros [|[|c]] [|]; cbn; repeat apply Forall_cons; try apply Forall_nil; cbn; lia.
Qed.
