(** The machine with a count of finite width agrees with the unbounded one as long as the observer does not stop it. *)
From Verif Require Import Base ReenterModel ReenterLayer ReWidthModel.

Definition bada (A : Type) : outcome A := Fault BadArg.
Notation agr := (agree bada).
Lemma agr_bind {A B} (r r' : outcome A) (f f' : A -> outcome B) : agr r r' -> (forall a, agr (f a) (f' a)) -> agr (bind r f) (bind r' f').
Proof. apply agree_bind. reflexivity. Qed.
Lemma touch_ob chk c l : agr (touch true c l) (touch chk c l).
Proof. unfold touch. destruct chk; [now right|]. cbn [andb]. destruct (existsb _ _); [now left|now right]. Qed.
Lemma pinned_ob chk c q : agr (pinned true c q) (pinned chk c q).
Proof. unfold pinned. destruct chk; [now right|]. cbn [andb]. destruct (negb _); [now left|now right]. Qed.

Section A.
Variables (debug : bool) (width : nat) (script : nat -> list cmd) (inc inc' : nat -> outcome nat) (chk : bool).
Hypothesis Hinc : forall n, agr (inc n) (inc' n).
Lemma add_agr s q : agr (add_refW inc s q) (add_refW inc' s q).
Proof.
  destruct q as [o|]; cbn [add_refW]; [|now right]. apply agr_bind; [now right|intros ob].
  destruct (st ob); try (now right); (apply agr_bind; [apply Hinc|now right]).
Qed.
Lemma copies_agr c : forall ms s, agr (copiesW inc true c s ms) (copiesW inc' chk c s ms).
Proof.
  induction ms as [|m ms IH]; intros s; cbn [copiesW]; [now right|].
  apply agr_bind; [now right|intros l]. apply agr_bind; [apply touch_ob|intros _].
  apply agr_bind; [now right|intros q]. apply agr_bind; [apply add_agr|intros s1].
  apply agr_bind; [apply IH|intros [s2 qs]]. now right.
Qed.
Lemma put_agr s l q : agr (putW inc s l q) (putW inc' s l q).
Proof. unfold putW. apply agr_bind; [now right|intros s1]. apply add_agr. Qed.
Section G.
Variables (E E' : ctx -> world -> list cmd -> outcome world) (R R' : ctx -> world -> nat -> outcome world).
Hypothesis HE : forall c s ks, agr (E c s ks) (E' c s ks).
Hypothesis HR : forall c s o, agr (R c s o) (R' c s o).
Lemma rold_agr c s l : agr (release_old true R c s l) (release_old chk R' c s l).
Proof. apply old_agree; [reflexivity|apply touch_ob|exact HR]. Qed.
Lemma caW_agr c s l m : agr (copy_assignW inc true R c s l m) (copy_assignW inc' chk R' c s l m).
Proof.
  unfold copy_assignW. apply agr_bind; [apply rold_agr|intros s1]. apply agr_bind; [apply touch_ob|intros _].
  apply agr_bind; [now right|intros q]. apply put_agr.
Qed.
Lemma stepW_agr c s k : agr (stepW inc true E R c s k) (stepW inc' chk E' R' c s k).
Proof.
  destruct k as [l|l k ms|l m|l m|l m|m body|v j m]; cbn [stepW].
  - apply agr_bind; [now right|intros l']. apply agr_bind; [apply rold_agr|intros s1]. apply put_agr.
  - apply agr_bind; [apply copies_agr|intros [s1 qs]]. cbv zeta. apply agr_bind; [now right|intros l'].
    apply agr_bind; [apply rold_agr|intros s2]. apply put_agr.
  - apply agr_bind; [now right|intros l']. apply agr_bind; [now right|intros m']. apply caW_agr.
  - apply agr_bind; [now right|intros m']. apply agr_bind; [apply touch_ob|intros _].
    apply agr_bind; [now right|intros q]. apply agr_bind; [apply pinned_ob|intros _].
    apply agr_bind; [now right|intros l']. apply agr_bind; [apply rold_agr|intros s1]. apply put_agr.
  - apply agr_bind; [now right|intros l']. apply agr_bind; [now right|intros m'].
    apply agr_bind; [apply rold_agr|intros s1]. apply agr_bind; [apply touch_ob|intros _]. now right.
  - apply agr_bind; [now right|intros m']. apply agr_bind; [apply touch_ob|intros _].
    apply agr_bind; [now right|intros q]. apply agr_bind; [apply add_agr|intros s1].
    apply agr_bind; [apply HE|intros s2]. now apply relp_agree.
  - apply agr_bind; [now right|intros m']. apply agr_bind; [apply touch_ob|intros _].
    apply agr_bind; [now right|intros [o|]]; [|now right]. apply agr_bind; [apply pinned_ob|intros _]. apply caW_agr.
Qed.
End G.
Lemma execW_agr : forall f,
  (forall c s ks, agr (execW debug width inc true script f c s ks) (execW debug width inc' chk script f c s ks)) /\
  (forall c s o, agr (relW debug width inc true script f c s o) (relW debug width inc' chk script f c s o)).
Proof.
  induction f as [|f [IHe IHr]]; [split; intros; now right|]. split.
  - intros c s [|k ks]; cbn [execW]; [now right|]. apply agr_bind; [now apply stepW_agr|intros s1; apply IHe].
  - intros c s o. cbn [relW]. apply release_agree; auto.
Qed.
End A.

(** With [S] as increment, the machine is the one of ReenterModel.v. *)
Definition inc_nat (n : nat) : outcome nat := Ok (S n).
Definition feq {A} := @agree (fun A => @Diverge A) A.
Section U.
Variables (debug : bool) (width : nat) (script : nat -> list cmd) (chk : bool).
Lemma add_nat s q : add_refW inc_nat s q = add_ref s q.
Proof. destruct q as [o|]; [|reflexivity]. cbn [add_refW add_ref]. destruct (slot_get (objs s) o) as [ob| |]; cbn [bind]; [|reflexivity|reflexivity]. now destruct (st ob). Qed.
Lemma bind_ext {A B} (r : outcome A) (f g : A -> outcome B) : (forall a, f a = g a) -> bind r f = bind r g.
Proof. intros H. destruct r; cbn; auto. Qed.
Lemma copies_nat c : forall ms s, copiesW inc_nat chk c s ms = copies chk c s ms.
Proof.
  induction ms as [|m ms IH]; intros s; cbn [copiesW copies]; [reflexivity|].
  do 3 (apply bind_ext; intros ?). rewrite add_nat. apply bind_ext; intros s1. now rewrite IH.
Qed.
Lemma put_nat s l q : putW inc_nat s l q = put s l q.
Proof. unfold putW, put. apply bind_ext; intros s1. apply add_nat. Qed.
Lemma ca_nat R c s l m : copy_assignW inc_nat chk R c s l m = copy_assign chk R c s l m.
Proof. unfold copy_assignW, copy_assign. do 3 (apply bind_ext; intros ?). apply put_nat. Qed.
Lemma step_nat E R c s k : stepW inc_nat chk E R c s k = step chk E R c s k.
Proof.
  destruct k as [l|l k ms|l m|l m|l m|m body|v j m]; cbn [stepW step].
  - do 2 (apply bind_ext; intros ?). apply put_nat.
  - rewrite copies_nat. apply bind_ext; intros [s1 qs]. cbv zeta. do 2 (apply bind_ext; intros ?). apply put_nat.
  - do 2 (apply bind_ext; intros ?). apply ca_nat.
  - do 6 (apply bind_ext; intros ?). apply put_nat.
  - reflexivity.
  - do 3 (apply bind_ext; intros ?). rewrite add_nat. reflexivity.
  - do 2 (apply bind_ext; intros ?). apply bind_ext; intros [o|]; [|reflexivity]. apply bind_ext; intros ?. apply ca_nat.
Qed.
Lemma exec_nat : forall f,
  (forall c s ks, execW debug width inc_nat chk script f c s ks = exec debug (2 ^ width - 1) chk script f c s ks) /\
  (forall c s o, relW debug width inc_nat chk script f c s o = rel debug (2 ^ width - 1) chk script f c s o).
Proof.
  induction f as [|f [IHe IHr]]; [split; reflexivity|].
  assert (NB : forall A B (g : A -> outcome B), bind (@Fault A BadArg) g = @Fault B BadArg) by reflexivity.
  split.
  - intros c s [|k ks]; cbn [execW exec]; [reflexivity|]. rewrite step_nat.
    assert (X : step chk (execW debug width inc_nat chk script f) (relW debug width inc_nat chk script f) c s k =
                step chk (exec debug (2 ^ width - 1) chk script f) (rel debug (2 ^ width - 1) chk script f) c s k).
    {
      pose proof (fun bad H => step_agree bad H chk chk (fun c l => agree_refl bad _) (fun c q => agree_refl bad _) _ _ _ _
        (fun c s ks => or_intror (IHe c s ks)) (fun c s o => or_intror (IHr c s o)) c s k) as Y.
      destruct (Y (fun A => Fault BadArg) ltac:(reflexivity)) as [Z1|Z]; [|exact Z].
      destruct (Y (fun A => Diverge) ltac:(reflexivity)) as [Z2|Z]; [|exact Z]. congruence. }
    etransitivity; [apply (f_equal (fun r => bind r _)); exact X|]. apply bind_ext; intros s1. apply IHe.
  - intros c s o. cbn [relW rel].
    pose proof (fun bad H => release_agree bad H debug (2 ^ width - 1) script _ _ _ _
        (fun c s ks => or_intror (IHe c s ks)) (fun c s o => or_intror (IHr c s o)) c s o) as Y.
    destruct (Y (fun A => Fault BadArg) ltac:(reflexivity)) as [Z1|Z]; [|exact Z].
    destruct (Y (fun A => Diverge) ltac:(reflexivity)) as [Z2|Z]; [|exact Z]. congruence.
Qed.
End U.

Lemma inc_ob_machine width n : agr (inc_observed width n) (inc_machine width n).
Proof.
  unfold inc_observed, inc_machine. destruct (Nat.leb_spec (2 ^ width) (n + 1)); [now left|right].
  now rewrite Nat.mod_small.
Qed.
Lemma inc_ob_nat width n : agr (inc_observed width n) (inc_nat n).
Proof. unfold inc_observed, inc_nat. destruct (2 ^ width <=? n + 1); [now left|right]. f_equal. lia. Qed.
