(** Proofs for am-priority-queue.h with moves that throw. *)
From Verif Require Import Base PQModel PQSpec PQProofs PQMoveModel PQMoveSpec.
Ltac Zify.zify_post_hook ::= Z.to_euclidean_division_equations.

Section Proofs.
Variable T : Type.
Variable hp : T -> T -> bool.
Variable debug : bool.
Variable throws : nat -> bool.
Variable elided : bool.
Notation full := (full T).
Notation swp := (swp T).
Notation par i := ((i - 1) / 2).
Notation up_loop := (PQMoveModel.up_loop hp debug throws).
Notation down_loop := (PQMoveModel.down_loop hp throws).

Lemma hole_perm (L : list T) : forall i y, nth_error L i = Some y ->
  exists S', Permutation L (y :: S') /\ Permutation (upd (full L) i None) (None :: map Some S').
Proof.
  induction L as [|a L IH]; intros [|i] y H; cbn in H; try discriminate.
  - injection H as ->. exists L. split; reflexivity.
  - destruct (IH _ _ H) as (S' & P & Q). exists (a :: S'). split.
    + rewrite P. apply perm_swap.
    + cbn. rewrite Q. apply perm_swap.
Qed.

Lemma up_all : forall fuel n L c key, c < fuel -> nth_error L c = Some key ->
  exists L' c' n' th, up_loop fuel n (upd (full L) c None) c key = Ok (upd (full L') c' None, c', n', th) /\
    nth_error L' c' = Some key /\ Permutation L' L.
Proof.
  induction fuel as [|f IH]; intros n L c key Hf Hk; [lia|]. cbn [PQMoveModel.up_loop].
  destruct (Nat.eqb_spec c 0) as [->|Hc].
  - exists L, 0, n, false. auto.
  - unfold parentOf.
    pose proof (nth_lt _ _ _ Hk) as Hlt.
    destruct (nth_ex L (par c)) as [pv Hpv]; [lia|].
    rewrite (proj2 (Nat.ltb_lt 0 c)) by lia. unfold assert_. rewrite andb_false_r. cbn [bind].
    rewrite (val_hole T L (par c) c pv) by (auto; lia). cbn [bind].
    destruct (hp key pv) eqn:Eh; cbn [negb].
    + destruct (throws n); [exists L, c, (S n), true; auto|].
      unfold take. rewrite (val_hole T L (par c) c pv) by (auto; lia). cbn [bind].
      unfold put. rewrite slot_set_ok by now rewrite !upd_length, full_length.
      cbn [bind].
      assert (El : upd (upd (upd (full L) c None) (par c) None) c (Some pv) =
                   upd (full (swp L c (par c) key pv)) (par c) None).
      { unfold PQProofs.swp. rewrite <- !upd_full. rewrite (upd_comm _ c (par c)) by lia. rewrite upd_upd.
        rewrite (upd_comm _ c (par c) (Some pv)) by lia.
        rewrite (upd_comm (upd (full L) (par c) (Some key)) c (par c)) by lia. now rewrite upd_upd. }
      rewrite El.
      destruct (IH (S n) (swp L c (par c) key pv) (par c) key) as (L' & c' & n' & th & E & Hk' & HP).
      { lia. }
      { rewrite (swp_nth T hp) by lia. destruct (Nat.eqb_spec (par c) c); [lia|]. now rewrite Nat.eqb_refl. }
      exists L', c', n', th. split; [exact E|]. split; [exact Hk'|]. rewrite HP. apply swp_perm; auto; lia.
    + exists L, c, n, false. auto.
Qed.

Lemma down_all : forall fuel n L c, length L - c < fuel -> c < length L ->
  exists q n' th, down_loop fuel n (full L) c = Ok (q, n', th) /\
    ((exists L', q = full L' /\ Permutation L' L) \/
     th = true /\ exists y S', Permutation L (y :: S') /\ Permutation q (None :: map Some S')).
Proof.
  induction fuel as [|f IH]; intros n L c Hf Hc; [lia|]. cbn [PQMoveModel.down_loop].
  unfold hasLeftChild, hasRightChild, leftChildOf, rightChildOf. rewrite full_length.
  destruct (nth_ex L c Hc) as [cv Hcv].
  destruct (Nat.ltb_spec (c * 2 + 1) (length L)) as [Hl|Hl].
  - destruct (nth_ex L _ Hl) as [lv Hlv].
    assert (Hbest : exists best bv, par best = c /\ 0 < best /\ nth_error L best = Some bv /\
      (if c * 2 + 2 <? length L
       then do r <- val T (full L) (c * 2 + 2); do b <- val T (full L) (c * 2 + 1);
            Ok (if hp r b then c * 2 + 2 else c * 2 + 1)
       else Ok (c * 2 + 1)) = Ok best).
    { destruct (Nat.ltb_spec (c * 2 + 2) (length L)) as [Hr|Hr].
      - destruct (nth_ex L _ Hr) as [rv Hrv].
        rewrite (val_full _ _ _ _ Hrv), (val_full _ _ _ _ Hlv). cbn [bind].
        destruct (hp rv lv) eqn:E.
        + exists (c * 2 + 2), rv. repeat split; auto; try lia.
        + exists (c * 2 + 1), lv. repeat split; auto; try lia.
      - exists (c * 2 + 1), lv. repeat split; auto; try lia. }
    destruct Hbest as (best & bv & Epb & Hb0 & Hbv & ->). cbn [bind].
    rewrite (val_full _ _ _ _ Hbv), (val_full _ _ _ _ Hcv). cbn [bind].
    destruct (hp bv cv) eqn:Eh; cbn [negb]; [|exists (full L), n, false; split; [reflexivity|left; eauto]].
    pose proof (nth_lt _ _ _ Hbv) as Hblt.
    destruct (throws n); [exists (full L), (S n), true; split; [reflexivity|left; eauto]|].
    destruct (throws (S n)).
    { eexists _, _, true. split; [reflexivity|]. right. split; [reflexivity|]. destruct (hole_perm L best bv Hbv) as (S' & P & Q). eauto. }
    rewrite put_full by auto. cbn [bind].
    destruct (throws (S (S n))).
    { eexists _, _, true. split; [reflexivity|]. right. split; [reflexivity|].
      destruct (hole_perm (upd L best cv) c cv) as (S' & P & Q).
      { rewrite nth_error_upd_ne by lia. exact Hcv. }
      exists bv, S'. split; [|exact Q]. apply (Permutation_cons_inv (a := cv)). rewrite (upd_perm L best bv cv Hbv), P. apply perm_swap. }
    rewrite put_full by now rewrite upd_length. cbn [bind].
    fold (swp L best c bv cv).
    assert (HW : Permutation (swp L best c bv cv) L) by (apply swp_perm; auto; lia).
    destruct (IH (S (S (S n))) (swp L best c bv cv) best) as (q & n' & th & E & HQ).
    { rewrite swp_length. lia. }
    { now rewrite swp_length. }
    exists q, n', th. split; [exact E|]. destruct HQ as [(L' & Hq & HP)|(Ht & y & S' & HP & Hq)].
    + left. exists L'. split; [exact Hq|]. now rewrite HP.
    + right. split; [exact Ht|]. exists y, S'. split; [|exact Hq]. now rewrite <- HW.
  - exists (full L), n, false. split; [reflexivity|]. left. eauto.
Qed.

Lemma add_all n L x : exists q n' th, PQMoveModel.add hp debug throws n (full L) x = Ok (q, n', th) /\
  (if th : bool then q = full L \/ q = full L ++ [Some x] \/ Permutation q (None :: map Some L)
   else exists L', q = full L' /\ Permutation L' (x :: L)).
Proof.
  unfold PQMoveModel.add. destruct (throws n); [exists (full L), (S n), true; auto|].
  assert (E : full L ++ [Some x] = full (L ++ [x])) by (unfold PQProofs.full; now rewrite map_app).
  rewrite E, full_length, app_length. cbn [length].
  destruct (Nat.ltb_spec 1 (length L + 1)) as [Hl|Hl].
  - unfold PQMoveModel.propagateUp, take.
    replace (length L + 1 - 1) with (length L) by lia.
    assert (Hk : nth_error (L ++ [x]) (length L) = Some x) by (rewrite nth_error_app2, Nat.sub_diag by lia; reflexivity).
    rewrite (val_full _ _ _ _ Hk). cbn [bind].
    destruct (throws (S n)); [exists (full (L ++ [x])), (S (S n)), true; auto|].
    destruct (up_all (S (length L)) (S (S n)) (L ++ [x]) (length L) x ltac:(lia) Hk) as (L' & c' & n1 & th & -> & Hk' & HP).
    cbn [bind].
    assert (HH : Permutation (upd (full L') c' None) (None :: map Some L)).
    { destruct (hole_perm L' c' x Hk') as (S' & P & Q). rewrite Q. apply perm_skip, Permutation_map.
      apply (Permutation_cons_inv (a := x)). rewrite <- P, HP. symmetry. apply Permutation_cons_append. }
    destruct th; [eexists _, n1, true; split; [reflexivity|]; auto|].
    destruct (throws n1); [eexists _, (S n1), true; split; [reflexivity|]; auto|].
    unfold put. pose proof (nth_lt _ _ _ Hk').
    rewrite slot_set_ok by now rewrite upd_length, full_length. cbn [bind].
    eexists _, _, false. split; [reflexivity|]. exists L'. split.
    + rewrite upd_upd, upd_full. f_equal. now apply upd_same.
    + rewrite HP. symmetry. apply Permutation_cons_append.
  - destruct L; [|cbn in Hl; lia]. eexists _, _, false. split; [reflexivity|]. exists [x]. auto.
Qed.

Lemma pop_all n x L : exists q n' r, PQMoveModel.pop hp debug throws elided n (full (x :: L)) = Ok (q, n', r) /\
  match r with
  | Some y => y = x /\ exists L', q = full L' /\ Permutation L' L
  | None => q = full (x :: L) \/ (exists L', q = full L' /\ Permutation L' L) \/ Permutation q (None :: map Some L)
            \/ exists y S', Permutation L (y :: S') /\ Permutation q (None :: map Some S')
  end.
Proof.
  unfold PQMoveModel.pop. unfold assert_. cbn [PQProofs.full map empty negb]. rewrite andb_false_r. cbn [bind].
  unfold take at 1. unfold val, slot_get. cbn [nth_error bind upd length].
  destruct (throws n); [eexists _, _, None; split; [reflexivity|]; auto|].
  assert (RT : forall k q0, (exists L', q0 = full L' /\ Permutation L' L) -> exists q n' r,
     @Ok (pq T * nat * option T) (return_top throws elided k x q0) = Ok (q, n', r) /\
     match r with
     | Some y => y = x /\ exists L', q = full L' /\ Permutation L' L
     | None => q = full (x :: L) \/ (exists L', q = full L' /\ Permutation L' L) \/ Permutation q (None :: map Some L)
               \/ exists y S', Permutation L (y :: S') /\ Permutation q (None :: map Some S')
     end).
  { intros k q0 H. unfold return_top. destruct elided; [eexists _, _, (Some x); split; [reflexivity|]; auto|].
    destruct (throws k); [eexists _, _, None|eexists _, _, (Some x)]; (split; [reflexivity|]); auto. }
  destruct L as [|y L] using rev_ind.
  - cbn [map length Nat.eqb removelast]. apply RT. exists []. auto.
  - clear IHL. rewrite map_length, app_length. cbn [length].
    replace (S (length L + 1) =? 1) with false by (symmetry; apply Nat.eqb_neq; lia).
    replace (S (length L + 1) - 1) with (S (length L)) by lia.
    unfold take, val.
    rewrite (slot_get_ok _ _ (Some y)).
    2:{ cbn [nth_error]. rewrite nth_error_map, nth_error_app2, Nat.sub_diag by lia. reflexivity. }
    cbn [bind]. destruct (throws (S n)); [eexists _, _, None; split; [reflexivity|]; auto|].
    unfold put. rewrite slot_set_ok by (cbn; rewrite upd_length; cbn; lia).
    cbn [bind upd].
    assert (E : removelast (Some y :: upd (map Some (L ++ [y])) (length L) None) = full (y :: L)).
    { rewrite map_app. cbn [map].
      assert (Eu : upd (map Some L ++ [Some y]) (length L) None = map Some L ++ [None]).
      { clear. induction L as [|a L IH]; [reflexivity|]. cbn. now rewrite IH. }
      rewrite Eu. change (Some y :: map Some L ++ [None]) with ((Some y :: map Some L) ++ [@None T]).
      now rewrite removelast_app1. }
    rewrite E. unfold PQMoveModel.propagateDown. rewrite full_length.
    destruct (down_all (S (length (y :: L))) (S (S n)) (y :: L) 0) as (q & n' & th & -> & HQ); [cbn; lia|cbn; lia|].
    assert (HA : Permutation (y :: L) (L ++ [y])) by apply Permutation_cons_append.
    cbn [bind]. destruct HQ as [(L' & Hq & HP)|(-> & z & S' & HP & Hq)].
    + destruct th.
      * eexists _, _, None. split; [reflexivity|]. right. left. exists L'. split; [exact Hq|]. now rewrite HP.
      * apply RT. exists L'. split; [exact Hq|]. now rewrite HP.
    + eexists _, _, None. split; [reflexivity|]. right. right. right. exists z, S'. split; [|exact Hq]. now rewrite <- HA.
Qed.

(** Without exceptions. *)
Lemma up_same : forall fuel n l c key l' c' n', up_loop fuel n l c key = Ok (l', c', n', false) ->
  PQModel.up_loop T hp debug fuel l c key = Ok (l', c').
Proof.
  induction fuel as [|f IH]; intros n l c key l' c' n' E; cbn [PQMoveModel.up_loop PQModel.up_loop] in *; [discriminate|].
  destruct (c =? 0); [congruence|]. destruct (parentOf debug c) as [p| |]; cbn [bind] in *; try discriminate.
  destruct (val T l p) as [pv| |]; cbn [bind] in *; try discriminate. destruct (hp key pv); cbn [negb] in *; [|congruence].
  destruct (throws n); [discriminate|]. destruct (take T l p) as [[x l1]| |]; cbn [bind] in *; try discriminate.
  destruct (put T l1 c x) as [l2| |]; cbn [bind] in *; try discriminate. eapply IH; eauto.
Qed.
Lemma down_same : forall fuel n l c l' n', down_loop fuel n l c = Ok (l', n', false) ->
  PQModel.down_loop T hp fuel l c = Ok l'.
Proof.
  induction fuel as [|f IH]; intros n l c l' n' E; cbn [PQMoveModel.down_loop PQModel.down_loop] in *; [discriminate|].
  destruct (hasLeftChild T l c); [|congruence].
  match goal with |- bind ?b _ = _ => destruct b as [best| |] end; cbn [bind] in *; try discriminate.
  destruct (val T l best) as [b| |]; cbn [bind] in *; try discriminate. destruct (val T l c) as [cv| |]; cbn [bind] in *; try discriminate.
  destruct (hp b cv); cbn [negb] in *; [|congruence].
  destruct (throws n); [discriminate|]. destruct (throws (S n)); [discriminate|].
  destruct (put T l best cv) as [l1| |]; cbn [bind] in *; try discriminate. destruct (throws (S (S n))); [discriminate|].
  destruct (put T l1 c b) as [l2| |]; cbn [bind] in *; try discriminate. eapply IH; eauto.
Qed.
Lemma step_same n l o l' n' r : PQMoveModel.step hp debug throws elided n l o = Ok (l', n', Some r) ->
  PQModel.step hp debug l o = Ok (l', r).
Proof.
  destruct o as [x| | | |]; cbn [PQMoveModel.step PQModel.step].
  - unfold PQMoveModel.add, PQModel.add. destruct (throws n); [discriminate|].
    destruct (1 <? length (l ++ [Some x])); [|cbn; congruence].
    unfold PQMoveModel.propagateUp, PQModel.propagateUp. destruct (take T _ _) as [[key l1]| |]; cbn [bind]; try discriminate.
    destruct (throws (S n)); [discriminate|]. destruct (up_loop _ _ _ _ _) as [[[[l2 c] n1] th]| |] eqn:E; cbn [bind]; try discriminate.
    destruct th; [discriminate|]. rewrite (up_same _ _ _ _ _ _ _ _ E). cbn [bind]. destruct (throws n1); [discriminate|].
    destruct (put T l2 c key); cbn [bind]; congruence.
  - unfold PQMoveModel.pop, PQModel.pop. destruct (assert_ debug _) as [u| |]; cbn [bind]; try discriminate.
    destruct (take T l 0) as [[top l1]| |]; cbn [bind]; try discriminate. destruct (throws n); [discriminate|].
    assert (RT' : forall k q, (do (l'0, n'0, r0) <- Ok (return_top throws elided k top q); Ok (l'0, n'0, option_map RVal r0)) = Ok (l', n', Some r) ->
      q = l' /\ RVal top = r).
    { intros k q. unfold return_top. destruct elided; cbn; [intros H; inversion H; auto|]. destruct (throws k); cbn; intros H; inversion H; auto. }
    destruct (length l1 =? 1).
    { intros H. apply RT' in H as [E1 E2]. subst. reflexivity. }
    destruct (take T l1 _) as [[b l2]| |]; cbn [bind]; try discriminate. destruct (throws (S n)); [discriminate|].
    destruct (put T l2 0 b) as [l3| |]; cbn [bind]; try discriminate.
    unfold PQMoveModel.propagateDown, PQModel.propagateDown.
    destruct (down_loop _ _ _ _) as [[[l4 n4] th]| |] eqn:E; cbn [bind]; try discriminate. destruct th; [discriminate|].
    rewrite (down_same _ _ _ _ _ _ E). cbn [bind]. intros H. apply RT' in H as [E1 E2]. subst. reflexivity.
  - destruct (peek T debug l); cbn [bind]; congruence.
  - congruence.
  - congruence.
Qed.
(** The moves of a call: numbers n to n' - 1, of which only the last may throw, and does if the call threw. *)
Definition tidy (n n' : nat) (th : bool) : Prop :=
  n <= n' /\ (forall k, n <= k -> k < n' -> (throws k = true <-> th = true /\ S k = n')) /\ (th = true -> n < n').
Lemma tidy_nil n : tidy n n false.
Proof. split; [lia|]. split; [intros; lia|discriminate]. Qed.
Lemma tidy_app n n1 n2 th : tidy n n1 false -> tidy n1 n2 th -> tidy n n2 th.
Proof.
  intros (A & B & _) (A' & B' & C'). split; [lia|]. split; [|intros Ht; specialize (C' Ht); lia].
  intros k H1 H2. destruct (Nat.lt_ge_cases k n1) as [H|H]; [|now apply B'].
  rewrite (B k H1 H). split; [intros [? _]; discriminate|]. intros [Ht E]. specialize (C' Ht). lia.
Qed.
Lemma tidy_one n th : throws n = th -> tidy n (S n) th.
Proof.
  intros E. split; [lia|]. split; [|lia]. intros k H1 H2. assert (k = n) as -> by lia. rewrite E. intuition.
Qed.
Lemma up_tidy : forall fuel n l c key l' c' n' th, up_loop fuel n l c key = Ok (l', c', n', th) -> tidy n n' th.
Proof.
  induction fuel as [|f IH]; intros n l c key l' c' n' th E; cbn [PQMoveModel.up_loop] in *; [discriminate|].
  destruct (c =? 0); [injection E as <- <- <- <-; apply tidy_nil|]. destruct (parentOf debug c) as [p| |]; cbn [bind] in *; try discriminate.
  destruct (val T l p) as [pv| |]; cbn [bind] in *; try discriminate.
  destruct (hp key pv); cbn [negb] in *; [|injection E as <- <- <- <-; apply tidy_nil].
  destruct (throws n) eqn:Et; [injection E as <- <- <- <-; now apply tidy_one|]. destruct (take T l p) as [[x l1]| |]; cbn [bind] in *; try discriminate.
  destruct (put T l1 c x) as [l2| |]; cbn [bind] in *; try discriminate. apply (tidy_app _ (S n)); [now apply tidy_one|]. eapply IH; eauto.
Qed.
Lemma down_tidy : forall fuel n l c l' n' th, down_loop fuel n l c = Ok (l', n', th) -> tidy n n' th.
Proof.
  induction fuel as [|f IH]; intros n l c l' n' th E; cbn [PQMoveModel.down_loop] in *; [discriminate|].
  destruct (hasLeftChild T l c); [|injection E as <- <- <-; apply tidy_nil].
  match type of E with bind ?b _ = _ => destruct b as [best| |] end; cbn [bind] in *; try discriminate.
  destruct (val T l best) as [b| |]; cbn [bind] in *; try discriminate. destruct (val T l c) as [cv| |]; cbn [bind] in *; try discriminate.
  destruct (hp b cv); cbn [negb] in *; [|injection E as <- <- <-; apply tidy_nil].
  destruct (throws n) eqn:E0; [injection E as <- <- <-; now apply tidy_one|]. apply (tidy_app _ (S n)); [now apply tidy_one|].
  destruct (throws (S n)) eqn:E1; [injection E as <- <- <-; now apply tidy_one|]. apply (tidy_app _ (S (S n))); [now apply tidy_one|].
  destruct (put T l best cv) as [l1| |]; cbn [bind] in *; try discriminate.
  destruct (throws (S (S n))) eqn:E2; [injection E as <- <- <-; now apply tidy_one|]. apply (tidy_app _ (S (S (S n)))); [now apply tidy_one|].
  destruct (put T l1 c b) as [l2| |]; cbn [bind] in *; try discriminate. eapply IH; eauto.
Qed.
Definition threw {A} (r : option A) : bool := match r with None => true | Some _ => false end.
Lemma top_tidy n (top : T) l l' n' (r : option T) : return_top throws elided n top l = (l', n', r) -> tidy n n' (threw r).
Proof.
  unfold return_top. destruct elided; [intros E; injection E as <- <- <-; apply tidy_nil|].
  destruct (throws n) eqn:Et; intros E; injection E as <- <- <-; now apply tidy_one.
Qed.
Lemma step_tidy n l o l' n' (r : option (out T)) : PQMoveModel.step hp debug throws elided n l o = Ok (l', n', r) ->
  tidy n n' (threw r) /\ match o with PAdd _ | PPop => n < n' | _ => True end.
Proof.
  assert (W : forall m (th : bool), tidy n (S n) false -> tidy (S n) m th -> tidy n m th /\ n < m).
  { intros m th A B. split; [now apply (tidy_app _ (S n))|]. destruct B as (B & _). lia. }
  destruct o as [x| | | |]; cbn [PQMoveModel.step]; intros E.
  - destruct (PQMoveModel.add hp debug throws n l x) as [[[q m] th]| |] eqn:Ea; cbn [bind] in E; try discriminate.
    assert (tidy n m th /\ n < m) as [A B].
    { unfold PQMoveModel.add in Ea. destruct (throws n) eqn:E0; [injection Ea as <- <- <-; split; [now apply tidy_one|lia]|].
      apply W; [now apply tidy_one|]. destruct (1 <? length (l ++ [Some x])); [|injection Ea as <- <- <-; apply tidy_nil].
      unfold PQMoveModel.propagateUp in Ea. destruct (take T _ _) as [[key l1]| |]; cbn [bind] in Ea; try discriminate.
      destruct (throws (S n)) eqn:E1; [injection Ea as <- <- <-; now apply tidy_one|]. apply (tidy_app _ (S (S n))); [now apply tidy_one|].
      destruct (up_loop _ _ _ _ _) as [[[[l2 c] n1] th1]| |] eqn:Eu; cbn [bind] in Ea; try discriminate. apply up_tidy in Eu.
      destruct th1; [injection Ea as <- <- <-; exact Eu|]. apply (tidy_app _ n1); [exact Eu|].
      destruct (throws n1) eqn:E2; [injection Ea as <- <- <-; now apply tidy_one|].
      destruct (put T l2 c key); cbn [bind] in Ea; try discriminate. injection Ea as <- <- <-. now apply tidy_one. }
    destruct th; injection E as <- <- <-; auto.
  - destruct (PQMoveModel.pop hp debug throws elided n l) as [[[q m] y]| |] eqn:Ea; cbn [bind] in E; try discriminate.
    assert (tidy n m (threw y) /\ n < m) as [A B].
    { unfold PQMoveModel.pop in Ea. destruct (assert_ debug _) as [u| |]; cbn [bind] in Ea; try discriminate.
      destruct (take T l 0) as [[top l1]| |]; cbn [bind] in Ea; try discriminate.
      destruct (throws n) eqn:E0; [injection Ea as <- <- <-; split; [now apply tidy_one|lia]|].
      apply W; [now apply tidy_one|]. destruct (length l1 =? 1); [injection Ea as Ea; now apply top_tidy in Ea|].
      destruct (take T l1 _) as [[b l2]| |]; cbn [bind] in Ea; try discriminate.
      destruct (throws (S n)) eqn:E1; [injection Ea as <- <- <-; now apply tidy_one|]. apply (tidy_app _ (S (S n))); [now apply tidy_one|].
      destruct (put T l2 0 b) as [l3| |]; cbn [bind] in Ea; try discriminate. unfold PQMoveModel.propagateDown in Ea.
      destruct (down_loop _ _ _ _) as [[[l4 n4] th]| |] eqn:Ed; cbn [bind] in Ea; try discriminate. apply down_tidy in Ed.
      destruct th; [injection Ea as <- <- <-; exact Ed|]. apply (tidy_app _ n4); [exact Ed|]. injection Ea as Ea. now apply top_tidy in Ea. }
    destruct y; injection E as <- <- <-; auto.
  - destruct (peek T debug l); cbn [bind] in E; try discriminate. injection E as <- <- <-. split; [apply tidy_nil|exact I].
  - injection E as <- <- <-. split; [apply tidy_nil|exact I].
  - injection E as <- <- <-. split; [apply tidy_nil|exact I].
Qed.
End Proofs.
