(** Proofs for FnThrowProps.v. *)
From Verif Require Import Base FnThrowModel FnThrowSpec.

Section P.
Variable V : Type.
Variable fits : V -> bool.
Variable throws : nat -> bool.
Notation state := (state V).

Definition cell (x : meaning V) : option (fn V) :=
  match x with
  | Gone => None
  | Empty => Some (Fn Null None None)
  | Holds c => Some (if fits (fst c) then Fn Inline (Some c) None else Fn Heap None (Some c))
  end.
Definition inv (s : state) (m : env V) (k : nat) : Prop := (forall v, vars s v = cell (m v)) /\ attempts s = k.

Lemma inv_init : inv empty_state none 0.
Proof. split; auto. Qed.

Ltac go :=
  cbv delta [fresh_var get_fn set_var destroy construct_inline construct_heap set_impl held assign_fn move_fn
             assign_obj raw discard end_ctor end_assign] beta;
  cbn -[Nat.eqb];
  repeat (match goal with
    | H : ?vs ?v = Some _ |- context[?vs ?v] => rewrite H
    | H : ?vs ?v = None |- context[?vs ?v] => rewrite H
    | |- context[?a =? ?a] => rewrite (Nat.eqb_refl a)
    | H : ?a <> ?b |- context[?a =? ?b] => rewrite (proj2 (Nat.eqb_neq a b) H)
    | H : ?a <> ?b |- context[?b =? ?a] => rewrite (proj2 (Nat.eqb_neq b a) (not_eq_sym H))
    | H : throws ?k = _ |- context[throws ?k] => rewrite H
    | H : fits ?k = _ |- context[fits ?k] => rewrite H
    end; cbn -[Nat.eqb]).

Ltac close HR :=
  eexists; split; [reflexivity|];
  split; [intros u; unfold put; cbn -[Nat.eqb]; specialize (HR u);
          repeat match goal with |- context[?a =? ?b] => destruct (Nat.eqb_spec a b); subst; cbn -[Nat.eqb] in * end;
          repeat match goal with H : fits ?k = _ |- context[fits ?k] => rewrite H end;
          try congruence; eauto
         |cbn; lia].

Lemma step_ok s m k o m' n r :
  inv s m k -> bad_assign fits throws m k o = false -> expect fits throws m k o = Some (m', n, r) ->
  exists s', step V fits throws s o = Ok (s', r) /\ inv s' m' (k + n).
Proof.
  intros (HR & Hk) Hb He.
  destruct s as [vs at_]; cbn in HR, Hk. subst at_.
  destruct o as [v|v w|v w|v x|v|v w|v w|v x|v|v|v]; cbn -[Nat.eqb] in Hb, He |- *.
  all: try match goal with H : (if ?a =? ?b then None else _) = _ |- _ => destruct (Nat.eqb_spec a b) as [|Hn]; [discriminate|] end.
  all: try (pose proof (HR v) as Rv); try (pose proof (HR w) as Rw).
  all: destruct (m v) as [| |cv] eqn:Ev; try discriminate.
  all: try (destruct (m w) as [| |cw] eqn:Ew; try discriminate).
  all: try (assert (w <> v) by (intros ->; congruence)).
  all: cbn in Rv; try cbn in Rw.
  all: try (destruct cv as [xv bv]; cbn [fst snd] in *; destruct (fits xv) eqn:Fv).
  all: try (destruct cw as [xw bw]; cbn [fst snd] in *; destruct (fits xw) eqn:Fw).
  all: try (destruct (fits x) eqn:Fx).
  all: try (destruct (throws k) eqn:Et); cbn [andb orb] in Hb; try discriminate.
  all: injection He as <- <- <-; go; close HR.
  all: try (rewrite Ev; reflexivity).
Qed.

Lemma run_ok p : forall s m k m' rs,
  inv s m k -> no_bad_assign fits throws m k p = true -> expects fits throws m k p = Some (m', rs) ->
  exists s', run V fits throws s p = Ok (s', rs) /\ exists k', inv s' m' k'.
Proof.
  induction p as [|o p IH]; intros s m k m' rs Hi Hn He; cbn in *.
  - injection He as <- <-. eauto.
  - destruct (expect fits throws m k o) as [[[m1 n] r]|] eqn:E; [|discriminate].
    apply andb_true_iff in Hn. destruct Hn as [Hb Hn]. apply negb_true_iff in Hb.
    destruct (expects fits throws m1 (k + n) p) as [[m2 rs2]|] eqn:E2; [|discriminate]. injection He as <- <-.
    destruct (step_ok s m k o m1 n r Hi Hb E) as (s1 & Hs & Hi1).
    rewrite Hs. cbn. destruct (IH s1 m1 (k + n) m2 rs2 Hi1 Hn E2) as (s2 & Hr & Hi2).
    rewrite Hr. cbn. eauto.
Qed.

(** Every bad assignment leaves a Function whose destructor faults. *)
Definition target_of (o : op V) : option nat :=
  match o with Assign u _ | AssignMove u _ | AssignObj u _ => Some u | _ => None end.
Lemma bad_faults s m k o v :
  inv s m k -> bad_assign fits throws m k o = true -> expect fits throws m k o <> None -> target_of o = Some v ->
  exists s', step V fits throws s o = Ok (s', Threw) /\ step V fits throws s' (Destroy v) = Fault DoubleFree.
Proof.
  intros (HR & Hk) Hb He Ht.
  destruct s as [vs at_]; cbn in HR, Hk. subst at_.
  destruct o as [a|a w|a w|a x|a|a w|a w|a x|a|a|a]; try discriminate; injection Ht as ->;
    cbn -[Nat.eqb] in Hb, He |- *.
  all: try match goal with H : (if ?a =? ?b then None else _) <> _ |- _ => destruct (Nat.eqb_spec a b) as [|Hn]; [congruence|] end.
  all: try (pose proof (HR v) as Rv); try (pose proof (HR w) as Rw).
  all: destruct (m v) as [| |cv] eqn:Ev; try congruence.
  all: try (destruct (m w) as [| |cw] eqn:Ew; try congruence).
  all: cbn in Rv; try cbn in Rw.
  all: try (destruct cv as [xv bv]; cbn [fst snd] in *; destruct (fits xv) eqn:Fv).
  all: try (destruct cw as [xw bw]; cbn [fst snd] in *; destruct (fits xw) eqn:Fw).
  all: try (destruct (fits x) eqn:Fx).
  all: destruct (throws k) eqn:Et; cbn [andb orb] in Hb; try discriminate.
  all: go; eexists; (split; [reflexivity|]); go; reflexivity.
Qed.
End P.
