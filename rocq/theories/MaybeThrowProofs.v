(** Proofs for MaybeThrowProps.v. *)
From Verif Require Import Base MaybeThrowModel MaybeThrowSpec.

Section P.
Variable V : Type.
Variable debug : bool.
Variable throws : nat -> bool.
Notation state := (state V).

(** A cell and its meaning; [tidy]: nothing has been abandoned so far. *)
Definition rel (tidy : bool) (c : option (cell V)) (x : meaning V) : Prop :=
  match x with
  | Gone => c = None
  | Nothing => exists st, c = Some (Cell false st) /\ (tidy = true -> st = None)
  | Has y => c = Some (Cell true (Some y))
  end.
Definition inv (tidy : bool) (s : state) (m : env V) (k : nat) : Prop :=
  (forall v, rel tidy (vars s v) (m v)) /\ attempts s = k /\ (tidy = true -> lost s = 0).

Lemma inv_init : inv true empty_state none 0.
Proof. repeat split; auto. Qed.

Ltac go :=
  cbv delta [get_cell set_var discard declare dtor destroy_T construct_T set_init read_T take_T
         finish finish_ctor init_with copy_from move_from] beta;
  cbn -[Nat.eqb];
  repeat (match goal with
    | H : ?vs ?v = Some _ |- context[?vs ?v] => rewrite H
    | H : ?vs ?v = None |- context[?vs ?v] => rewrite H
    | |- context[?a =? ?a] => rewrite (Nat.eqb_refl a)
    | H : ?a <> ?b |- context[?a =? ?b] => rewrite (proj2 (Nat.eqb_neq a b) H)
    | H : ?a <> ?b |- context[?b =? ?a] => rewrite (proj2 (Nat.eqb_neq b a) (not_eq_sym H))
    | H : throws ?k = _ |- context[throws ?k] => rewrite H
    end; cbn -[Nat.eqb]).

Ltac close HR :=
  eexists; split; [reflexivity|];
  split; [intros u; unfold put; cbn -[Nat.eqb]; specialize (HR u);
          repeat match goal with |- context[?a =? ?b] => destruct (Nat.eqb_spec a b); subst; cbn -[Nat.eqb] in * end;
          try congruence; eauto
         |split; [cbn; lia|cbn; auto]].

Lemma step_ok tidy s m k o m' n r :
  inv tidy s m k -> bad_init throws m k o = false -> (tidy = true -> abandons m o = false) ->
  expect throws m k o = Some (m', n, r) ->
  exists s', step V debug throws s o = Ok (s', r) /\ inv tidy s' m' (k + n).
Proof.
  intros (HR & Hk & Hl) Hb Ha He.
  destruct s as [vs at_ lo]; cbn in HR, Hk, Hl. subst at_.
  destruct o as [v|v w|v w|v x|v x|v w|v w|v|v|v]; cbn -[Nat.eqb] in Hb, Ha, He |- *.
  - pose proof (HR v) as Rv. destruct (m v) eqn:Ev; try discriminate. injection He as <- <- <-. cbn in Rv.
    go. close HR.
  - pose proof (HR v) as Rv. pose proof (HR w) as Rw.
    destruct (m v) eqn:Ev; try discriminate. destruct (m w) eqn:Ew; try discriminate;
    assert (w <> v) by (intros ->; congruence); cbn in Rv, Rw.
    + destruct Rw as (st & Rw & Ht). injection He as <- <- <-. go. close HR.
    + destruct (throws k) eqn:Et; injection He as <- <- <-; go; close HR. all: try (rewrite Ev; reflexivity).
  - pose proof (HR v) as Rv. pose proof (HR w) as Rw.
    destruct (m v) eqn:Ev; try discriminate. destruct (m w) eqn:Ew; try discriminate;
    assert (w <> v) by (intros ->; congruence); cbn in Rv, Rw.
    + destruct Rw as (st & Rw & Ht). injection He as <- <- <-. go. close HR.
    + destruct (throws k) eqn:Et; injection He as <- <- <-; go; close HR. all: try (rewrite Ev; reflexivity).
      all: try (eexists; split; [reflexivity|]; intros Ht; specialize (Ha Ht); discriminate).
  - pose proof (HR v) as Rv. destruct (m v) eqn:Ev; try discriminate. cbn in Rv.
    destruct (throws k) eqn:Et; injection He as <- <- <-; go; close HR. all: try (rewrite Ev; reflexivity).
  - pose proof (HR v) as Rv. destruct (m v) eqn:Ev; try discriminate; cbn in Rv.
    + destruct Rv as (st & Rv & Ht).
      destruct (throws k) eqn:Et; injection He as <- <- <-; go; close HR.
      all: try (intros T; rewrite (Ht T); auto).
    + rewrite Hb in He. injection He as <- <- <-. go. close HR.
  - destruct (Nat.eqb_spec v w) as [|Hn]; [discriminate|].
    pose proof (HR v) as Rv. pose proof (HR w) as Rw.
    destruct (m v) eqn:Ev; try discriminate; destruct (m w) eqn:Ew; try discriminate; cbn in Rv, Rw.
    all: repeat match goal with H : exists _, _ /\ _ |- _ => destruct H as (? & ? & ?) end.
    all: try (destruct (throws k) eqn:Et); injection He as <- <- <-; go; close HR.
    all: try (intros T; match goal with H : ?t = true -> ?x = None |- _ => rewrite (H T); auto end).
    all: try (intros T; specialize (Ha T); discriminate).
    all: try (eexists; split; [reflexivity|]; intros T; try (specialize (Ha T); discriminate); auto).
  - destruct (Nat.eqb_spec v w) as [|Hn]; [discriminate|].
    pose proof (HR v) as Rv. pose proof (HR w) as Rw.
    destruct (m v) eqn:Ev; try discriminate; destruct (m w) eqn:Ew; try discriminate; cbn in Rv, Rw.
    all: repeat match goal with H : exists _, _ /\ _ |- _ => destruct H as (? & ? & ?) end.
    all: try (destruct (throws k) eqn:Et); injection He as <- <- <-; go; close HR.
    all: try (intros T; match goal with H : ?t = true -> ?x = None |- _ => rewrite (H T); auto end).
    all: try (intros T; specialize (Ha T); discriminate).
    all: try (eexists; split; [reflexivity|]; intros T; try (specialize (Ha T); discriminate); auto).
  - pose proof (HR v) as Rv. destruct (m v) eqn:Ev; try discriminate. injection He as <- <- <-. cbn in Rv.
    go. unfold assert_. rewrite andb_false_r. cbn -[Nat.eqb]. go. close HR.
  - pose proof (HR v) as Rv. destruct (m v) eqn:Ev; try discriminate; injection He as <- <- <-; cbn in Rv.
    + destruct Rv as (st & Rv & Ht). go. close HR.
    + go. close HR.
  - pose proof (HR v) as Rv. destruct (m v) eqn:Ev; try discriminate; injection He as <- <- <-; cbn in Rv.
    + destruct Rv as (st & Rv & Ht). go. close HR. intros T. rewrite (Ht T). auto.
    + go. close HR.
Qed.

Lemma run_ok tidy p : forall s m k m' rs,
  inv tidy s m k -> never throws (bad_init throws) m k p = true ->
  (tidy = true -> never throws (fun m _ o => abandons m o) m k p = true) ->
  expects throws m k p = Some (m', rs) ->
  exists s', run V debug throws s p = Ok (s', rs) /\ exists k', inv tidy s' m' k'.
Proof.
  induction p as [|o p IH]; intros s m k m' rs Hi Hn Ha He; cbn in *.
  - injection He as <- <-. eauto.
  - destruct (expect throws m k o) as [[[m1 n] r]|] eqn:E; [|discriminate].
    apply andb_true_iff in Hn. destruct Hn as [Hb Hn]. apply negb_true_iff in Hb.
    destruct (expects throws m1 (k + n) p) as [[m2 rs2]|] eqn:E2; [|discriminate]. injection He as <- <-.
    destruct (step_ok tidy s m k o m1 n r Hi Hb) as (s1 & Hs & Hi1); auto.
    { intros T. specialize (Ha T). apply andb_true_iff in Ha. apply negb_true_iff, Ha. }
    rewrite Hs. cbn.
    destruct (IH s1 m1 (k + n) m2 rs2 Hi1 Hn) as (s2 & Hr & Hi2); auto.
    { intros T. specialize (Ha T). apply andb_true_iff in Ha. apply Ha. }
    rewrite Hr. cbn. eauto.
Qed.
End P.
