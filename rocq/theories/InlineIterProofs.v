(** Iterators of InlineList follow their specification. *)
From Verif Require Import Base InlineListModel InlineListSpec InlineListProofs InlineIterModel InlineIterSpec.

Definition ptr_of (x : place) : ptr :=
  match x with AtNode n => Some (Node n) | AtEnd l => Some (Head l) | Nowhere => None end.
Definition irel (P : places) (I : ivars) : Prop := forall v, I v = (fst (P v), ptr_of (snd (P v))).

Lemma irel0 : irel places0 ivars0.
Proof. intros v. reflexivity. Qed.
Lemma irel_set P I v d x : irel P I -> irel (pset P v (d, x)) (iset I v (d, ptr_of x)).
Proof. intros H w. unfold pset, iset. destruct (v =? w); [reflexivity|apply H]. Qed.
Lemma irel_setv P I v w : irel P I -> irel (pset P w (P v)) (iset I w (I v)).
Proof. intros H k. unfold pset, iset. destruct (w =? k); apply H. Qed.

Lemma first_fwd l s : Some (hd (Head l) (map Node s)) = ptr_of (first l s).
Proof. now destruct s. Qed.
Lemma first_rev l s : Some (last (map Node s) (Head l)) = ptr_of (first l (rev s)).
Proof.
  destruct s as [|n s _] using rev_ind; [reflexivity|]. rewrite map_app, rev_unit. cbn [map first ptr_of].
  now rewrite last_last.
Qed.
Lemma ptr_of_eqb x y : ptr_eqb (ptr_of x) (ptr_of y) = true <-> x = y.
Proof.
  destruct x as [n|l|], y as [k|j|]; cbn; rewrite ?Nat.eqb_eq; split; intros H; congruence.
Qed.

Section Steps.
Variable debug : bool.

Lemma advance_ok A m u (dir : bool) n : inv debug A m u -> in_some A n ->
  exists x, follows A dir n x /\
    (if dir then rd_next m (Some (Node n)) else rd_prev m (Some (Node n))) = Ok (ptr_of x).
Proof.
  intros H (l & s & Es & Hi). apply in_split in Hi as (s1 & s2 & ->).
  exists (first l (if dir then s2 else rev s1)). split; [exists l, s1, s2; auto|].
  destruct dir.
  - rewrite (adv_fwd debug _ _ _ _ _ _ _ H Es). now rewrite first_fwd.
  - rewrite (adv_rev debug _ _ _ _ _ _ _ H Es). now rewrite first_rev.
Qed.

Lemma cstep_ok fuel A m u P I c k : inv debug A m u -> irel P I -> cpre A P c -> bounded A k -> k < fuel ->
  exists m' I' r A' P' u', cstep debug fuel m I c = Ok (m', I', r) /\ ceffect A P c r A' P' /\
    inv debug A' m' u' /\ irel P' I' /\ bounded A' (k + if c_append c then 1 else 0).
Proof.
  intros H Hr Hp Hb Hk.
  assert (B0 : bounded A (k + 0)) by (rewrite Nat.add_0_r; exact Hb).
  destruct c as [o|v dir l|v dir l|v|v w|v w|v|v w|v w l]; cbn [cstep cpre c_append] in *.
  - destruct (step_ok debug fuel A m u o H Hp) as (m' & r & E & H' & Hs & _).
    { intros l s Es. apply Hb in Es. lia. }
    rewrite E. cbn [bind]. eexists _, _, _, _, _, _. split; [reflexivity|]. apply shows_weaken in Hs as [Hs _].
    split; [constructor; exact Hs|]. split; [exact H'|]. split; [exact Hr|]. now apply effect_bounded.
  - destruct (A l) as [s|] eqn:Es; [|congruence].
    eexists m, _, ONone, A, _, u. unfold it_begin.
    assert (E : (if dir then rd_next m (Some (Head l)) else rd_prev m (Some (Head l))) =
                Ok (ptr_of (first l (if dir then s else rev s)))).
    { destruct dir.
      - rewrite <- first_fwd. exact (begin_fwd debug _ _ _ _ _ H Es).
      - rewrite <- first_rev. exact (begin_rev debug _ _ _ _ _ H Es). }
    rewrite E. cbn [bind]. split; [reflexivity|]. split; [constructor; exact Es|]. split; [exact H|].
    split; [now apply irel_set|exact B0].
  - eexists m, _, ONone, A, _, u. unfold it_end, chk, alive. rewrite (i_live _ _ _ _ H).
    destruct (A l) as [s|] eqn:Es; [|congruence]. cbn [bind]. split; [reflexivity|]. split; [constructor|].
    split; [exact H|]. split; [|exact B0]. apply (irel_set P I v dir (AtEnd l) Hr).
  - destruct Hp as (n & En & Hi). destruct (advance_ok A m u (fst (P v)) n H Hi) as (x & Hx & E).
    eexists m, _, ONone, A, _, u. unfold it_incr. rewrite (Hr v). cbn [fst snd]. rewrite En. cbn [ptr_of]. rewrite E. cbn [bind].
    split; [reflexivity|]. split; [econstructor; eauto|]. split; [exact H|]. split; [now apply irel_set|exact B0].
  - destruct Hp as (n & En & Hi). destruct (advance_ok A m u (fst (P v)) n H Hi) as (x & Hx & E).
    eexists m, _, ONone, A, _, u. unfold it_post. rewrite (Hr v). cbn [fst snd]. rewrite En. cbn [ptr_of]. rewrite E. cbn [bind].
    split; [reflexivity|]. split; [econstructor; eauto|]. split; [exact H|]. split; [|exact B0].
    rewrite (surjective_pairing (P v)) at 2. rewrite En. apply (irel_set _ _ w (fst (P v)) (AtNode n)). now apply irel_set.
  - eexists m, _, ONone, A, _, u. split; [reflexivity|]. split; [constructor|]. split; [exact H|].
    split; [now apply irel_setv|exact B0].
  - destruct Hp as (n & En). eexists m, _, (ONode n), A, _, u. unfold it_get. rewrite (Hr v). cbn [snd]. rewrite En. cbn [ptr_of deref bind].
    split; [reflexivity|]. split; [constructor; exact En|]. split; [exact H|]. split; [exact Hr|exact B0].
  - eexists m, _, _, A, P, u. split; [reflexivity|]. split.
    + unfold it_ne. fold (it_eq (I v) (I w)). constructor. unfold it_eq. rewrite !Hr. cbn [snd]. apply ptr_of_eqb.
    + split; [exact H|]. split; [exact Hr|exact B0].
  - destruct Hp as (n & En & Hi). assert (Hs : in_some A n) by (exists l; exact Hi).
    destruct (advance_ok A m u (fst (P v)) n H Hs) as (x & Hx & E).
    unfold it_erase, it_post. rewrite (Hr v). cbn [fst snd]. rewrite En. cbn [ptr_of]. rewrite E. cbn [bind].
    destruct Hi as (s & Es & Hi). apply in_split in Hi as (s1 & s2 & ->).
    destruct (remove_ok debug A m u l s1 n s2 H Es) as (m' & E' & H'). rewrite E'. cbn [bind].
    eexists m', _, ONone, _, _, u. split; [reflexivity|]. split; [econstructor; eauto|].
    rewrite Es. cbn [option_map]. rewrite del_mid by exact (i_nodup _ _ _ _ H _ _ Es). split; [exact H'|]. split.
    + apply irel_set. apply (irel_set P I v (fst (P v)) Nowhere Hr).
    + intros l' s' Es'. unfold set_list in Es'. destruct (l =? l') eqn:El.
      * injection Es' as <-. apply Hb in Es. rewrite app_length in *. cbn [length] in Es. lia.
      * apply B0 in Es'. exact Es'.
Qed.

Lemma crun_ok fuel : forall cs A m u P I k, inv debug A m u -> irel P I -> clegal A P cs -> bounded A k ->
  k + cappends cs < fuel ->
  exists m' I' rs A' P', crun debug fuel m I cs = Ok (m', I', rs) /\ cexplains A P cs rs A' P'.
Proof.
  induction cs as [|c cs IH]; intros A m u P I k H Hr Hl Hb Hk.
  - exists m, I, [], A, P. split; [reflexivity|constructor].
  - destruct Hl as [Hp Hl]. unfold cappends in Hk. cbn [filter] in Hk.
    destruct (cstep_ok fuel A m u P I c k H Hr Hp Hb ltac:(lia)) as (m1 & I1 & r & A1 & P1 & u1 & E & He & H1 & Hr1 & Hb1).
    destruct (IH A1 m1 u1 P1 I1 _ H1 Hr1 (Hl _ _ _ He) Hb1) as (m2 & I2 & rs & A2 & P2 & E2 & Hx).
    { unfold cappends. destruct (c_append c); cbn [length] in Hk; lia. }
    cbn [crun]. rewrite E. cbn [bind]. rewrite E2. cbn [bind]. eexists _, _, _, _, _. split; [reflexivity|].
    econstructor; eauto.
Qed.
End Steps.
