(** Property C128, continued (amtl/am-refcounting.h:122-136, 187-318): a count of finite width, with destructors that use RefPtrs themselves. *)
From Verif Require Import Base ReenterModel ReenterSpec ReenterProofs ReenterStep ReenterLayer ReenterProps ReWidthModel ReWidthProofs.

(** If no increment would wrap, and no command uses a RefPtr while it is being assigned or relies on an object it does not hold
    (the observer stops at neither), then a program with any destructors runs on the machine exactly as it does with an unbounded
    count, without faults, and whenever it ends the books balance. *)
Theorem C128_reentrant_destructors : forall debug width ng nm script prog f, program ng nm script prog ->
  runW debug width (inc_observed width) true script f ng prog <> Fault BadArg ->
  runW debug width (inc_machine width) false script f ng prog = run debug (2 ^ width - 1) false script f ng prog /\
  (runW debug width (inc_machine width) false script f ng prog = Diverge \/
   exists s, runW debug width (inc_machine width) false script f ng prog = Ok s /\ balanced s).
Proof.
  intros debug width ng nm script prog f Hp H. unfold runW in *.
  destruct (proj1 (execW_agr debug width script _ _ false (inc_ob_machine width) f) main_ctx (start ng) prog) as [X|X]; [contradiction|].
  destruct (proj1 (execW_agr debug width script _ _ true (inc_ob_nat width) f) main_ctx (start ng) prog) as [Y|Y]; [contradiction|].
  rewrite (proj1 (exec_nat debug width script true f)) in Y. rewrite <- X, Y in *.
  assert (H' : run debug (2 ^ width - 1) true script f ng prog <> Fault BadArg) by exact H.
  destruct (proj1 (observer_agree debug (2 ^ width - 1) script f) main_ctx (start ng) prog) as [Z|Z]; [contradiction|].
  unfold run. rewrite <- Z. split; [reflexivity|].
  destruct (C110_reentrant_destructors_partial debug (2 ^ width - 1) ng nm script prog f Hp H') as [D|(s & D & B)]; unfold run in D; rewrite <- Z in D; eauto.
Qed.
Print Assumptions C128_reentrant_destructors.

(** The bound is sharp for any width, in every build: with 2^width temporaries on an object that one global RefPtr holds, resetting
    that RefPtr destroys the object, and the first temporary to go uses it after that. *)
Fixpoint holds (k : nat) (body : list cmd) : list cmd := match k with O => body | S k => [Hold (PG 0) (holds k body)] end.
Lemma execW_cons debug width inc chk script f c s k r : execW debug width inc chk script (S f) c s (k :: r) =
  bind (stepW inc chk (execW debug width inc chk script f) (relW debug width inc chk script f) c s k) (fun s => execW debug width inc chk script f c s r).
Proof. reflexivity. Qed.
Definition one (n : nat) : world := World [Obj n Alive 0 []] [Some 0] [].
Lemma holds_fault debug width body : 
  forall k n f c, (forall c, execW debug width (inc_machine width) false (fun _ => []) f c (one ((n + k) mod 2 ^ width)) body = Fault UseAfterFree) ->
  n < 2 ^ width -> execW debug width (inc_machine width) false (fun _ => []) (k + f) c (one n) (holds k body) = Fault UseAfterFree.
Proof.
  induction k as [|k IH]; intros n f c H Hn; cbn [holds Nat.add].
  - rewrite Nat.add_0_r, Nat.mod_small in H by exact Hn. apply H.
  - cbn [execW stepW res bind touch andb read one globs slot_get nth_error add_refW objs st rc cls mem inc_machine set_obj upd log].
    change (World [Obj ((n + 1) mod 2 ^ width) Alive 0 []] [Some 0] []) with (one ((n + 1) mod 2 ^ width)).
    assert (P : 2 ^ width <> 0) by (apply Nat.pow_nonzero; lia).
    rewrite (IH ((n + 1) mod 2 ^ width)); [reflexivity| |now apply Nat.mod_upper_bound].
    intros c'. rewrite Nat.add_mod_idemp_l by exact P. replace (n + 1 + k) with (n + S k) by lia. apply H.
Qed.
Theorem C128_temporaries_wrap : forall debug width, 0 < width ->
  runW debug width (inc_machine width) false (fun _ => []) (2 ^ width + 10) 1 (New (PG 0) 0 [] :: holds (2 ^ width) [Null (PG 0)]) = Fault UseAfterFree.
Proof.
  intros debug width Hw. assert (W : 1 < 2 ^ width) by (apply (Nat.pow_gt_1 2 width); lia).
  destruct (2 ^ width) as [|[|k]] eqn:EW; try lia. unfold runW.
  replace (S (S k) + 10) with (S (S k + 10)) by lia. rewrite execW_cons.
  assert (E0 : stepW (inc_machine width) false (execW debug width (inc_machine width) false (fun _ => []) (S k + 10))
    (relW debug width (inc_machine width) false (fun _ => []) (S k + 10)) main_ctx (start 1) (New (PG 0) 0 []) = Ok (one (1 mod 2 ^ width))) by reflexivity.
  rewrite E0. cbn [bind]. rewrite (Nat.mod_small 1) by lia.
  replace (holds (S (S k)) [Null (PG 0)]) with (holds (S k) [Hold (PG 0) [Null (PG 0)]]).
  2:{ clear. induction k as [|k IH]; [reflexivity|]. cbn [holds]. do 2 f_equal. exact IH. }
  apply holds_fault; [|lia]. intros c. replace (1 + S k) with (S (S k)) by lia. rewrite EW, Nat.mod_same by lia.
  cbn [execW stepW res bind touch andb read one globs slot_get nth_error add_refW objs st rc cls mem inc_machine set_obj upd log].
  rewrite EW, (Nat.mod_small (0 + 1)) by lia. 
  cbn [execW stepW res bind touch andb read one globs slot_get nth_error add_refW objs st rc cls mem release_old relp relW release assert_ Nat.ltb Nat.leb negb].
  destruct debug; cbn; reflexivity.
Qed.
Print Assumptions C128_temporaries_wrap.

(** The cache of ReenterProps.v, whose destructor replaces the last error, needs counts below 8 only. *)
Example C128_reentrant_case debug : program 3 1 demo_scripts demo /\
  runW debug 3 (inc_observed 3) true demo_scripts 100 3 demo <> Fault BadArg /\
  exists s, runW debug 3 (inc_machine 3) false demo_scripts 100 3 demo = Ok s /\ log s = [2; 4; 0; 1; 3].
Proof.
  split; [exact demo_program|]. split; [destruct debug; vm_compute; discriminate|].
  destruct debug; eexists; vm_compute; repeat split.
Qed.
