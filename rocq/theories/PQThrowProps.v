(** Property theorems C134: am-priority-queue.h with a comparator that may throw. *)
From Verif Require Import Base PQModel PQSpec PQProofs PQCostModel PQThrowModel PQThrowSpec PQThrowProofs.

(** Full statement (false): an add whose comparison throws leaves the queue as it was, or with the new item in it.
    Whatever happened before, whenever an add throws: the new item is gone, and an item that has been moved from is in
    the queue for ever - no sequence of calls that respects empty() gets rid of it, each either ends with it still
    there or reads it; popping as many items as the queue says it has always reads it. *)
Theorem C134_add_exception_refuted : forall T St (cmp : St -> T -> T -> option bool * St) debug pre s0 q s rs x q' s',
  legal 0 pre -> run cmp debug s0 [] pre = Ok (q, s, rs) ->
  step cmp debug s q (PAdd x) = Ok (q', s', Threw) ->
  Permutation q' (None :: q)
  /\ (forall post, legal (length q') post ->
        run cmp debug s' q' post = Fault MovedFrom
        \/ exists q2 s2 rs2, run cmp debug s' q' post = Ok (q2, s2, rs2) /\ In None q2)
  /\ run cmp debug s' q' (repeat PPop (length q')) = Fault MovedFrom.
Proof.
  intros T St cmp debug pre s0 q s rs x q' s' HL Hr E.
  assert (HP : Permutation q' (None :: q)).
  { destruct (step_cells T St cmp debug s q (PAdd x) I) as [(E1 & _)|(q1 & s1 & r & E1 & Hc)]; rewrite E in E1; [discriminate|].
    injection E1 as <- <- <-. destruct Hc as [[X _]|[_ [H _]]]; [discriminate|exact H]. }
  assert (Hh : In None q') by (apply (Permutation_in _ (Permutation_sym HP)); now left).
  assert (HA : forall post, legal (length q') post ->
        run cmp debug s' q' post = Fault MovedFrom
        \/ exists q2 s2 rs2, run cmp debug s' q' post = Ok (q2, s2, rs2) /\ In None q2).
  { intros post Hp. destruct (run cmp debug s' q' post) as [[[q2 s2] rs2]|f|] eqn:Ep.
    - right. exists q2, s2, rs2. split; [reflexivity|]. eapply run_hole; eauto.
    - left. f_equal. eapply run_moved; eauto.
    - destruct (run_total T St cmp debug post s' q' Hp Ep). }
  split; [exact HP|]. split; [exact HA|].
  assert (Hl : forall n, legal n (repeat (@PPop T) n)).
  { induction n as [|n IH]; cbn; [exact I|]. split; [lia|]. now rewrite Nat.sub_0_r. }
  destruct (HA _ (Hl _)) as [H|(q2 & s2 & rs2 & H & Hin)]; [exact H|]. exfalso.
  assert (Hlen : forall n s q, n = length q -> forall q2 s2 rs2, run cmp debug s q (repeat PPop n) = Ok (q2, s2, rs2) -> q2 = []).
  { clear. induction n as [|n IH]; intros s q Hn q2 s2 rs2 E; cbn [repeat run] in E.
    - injection E as <- _ _. destruct q; [reflexivity|discriminate].
    - assert (Hm : may_call T q (@PPop T)) by (destruct q; cbn in *; congruence).
      destruct (step_cells T St cmp debug s q PPop Hm) as [(E1 & _)|(q1 & s1 & r & E1 & Hc)]; rewrite E1 in E; cbn [bind] in E; [discriminate|].
      destruct (run cmp debug s1 q1 (repeat PPop n)) as [[[q3 s3] rs3]| |] eqn:E2; cbn [bind] in E; try discriminate.
      injection E as <- _ _. eapply IH; [|exact E2]. apply (cell_step_length T St cmp) in Hc. lia. }
  rewrite (Hlen (length q') s' q' eq_refl q2 s2 rs2 H) in Hin. exact Hin.
Qed.
Print Assumptions C134_add_exception_refuted.

(** No state is spared: an add to a queue with an item in it throws as soon as the comparator does. *)
Theorem C134_every_add_can_throw : forall T St (cmp : St -> T -> T -> option bool * St) debug s S x,
  S <> [] -> (forall a b, fst (cmp s a b) = None) ->
  exists q' s', step cmp debug s (map Some S) (PAdd x) = Ok (q', s', Threw).
Proof.
  intros T St cmp debug s S x HS Hc. destruct S as [|y S]; [congruence|]. clear HS.
  set (L := y :: S). assert (Hn : 0 < length L) by (cbn; lia). clearbody L.
  cbn [step]. unfold add, propagateUp. rewrite app_length, map_length. cbn [length].
  rewrite (proj2 (Nat.ltb_lt 1 _)) by lia. replace (length L + 1 - 1) with (length L) by lia.
  unfold take, val, slot_get. pose proof (nth_last T (map Some L) (Some x)) as E. rewrite map_length in E. rewrite E.
  cbn [bind up_loop]. rewrite (proj2 (Nat.eqb_neq (length L) 0)) by lia. rewrite parentOf_ok' by exact Hn. cbn [bind].
  pose proof (half_lt (length L) Hn) as Hp. destruct (nth_ex L ((length L - 1) / 2) Hp) as [pv Hpv].
  assert (Ev : val T (upd (map Some L ++ [Some x]) (length L) None) ((length L - 1) / 2) = Ok pv).
  { unfold val, slot_get. rewrite nth_error_upd_ne by lia. rewrite nth_error_app1 by (rewrite map_length; exact Hp).
    rewrite nth_error_map, Hpv. reflexivity. }
  rewrite Ev. cbn [bind]. specialize (Hc x pv). destruct (cmp s x pv) as [r s1]. cbn [fst] in Hc. subst r. cbn [bind]. eauto.
Qed.
Print Assumptions C134_every_add_can_throw.

(** What holds: until an add throws, nothing faults, every result is that of a bag of items, and a pop that throws has
    removed exactly one item, whatever the comparator answers and whenever it throws. *)
Theorem C134_exceptions_partial : forall T St (cmp : St -> T -> T -> option bool * St) debug s ops,
  legal 0 ops ->
  (exists q s' rs S, run cmp debug s [] ops = Ok (q, s', rs) /\ holds q S /\ xbag_run [] ops rs S)
  \/ exists pre x post q1 s1 rs S q2 s2, ops = pre ++ PAdd x :: post
       /\ run cmp debug s [] pre = Ok (q1, s1, rs) /\ holds q1 S /\ xbag_run [] pre rs S
       /\ step cmp debug s1 q1 (PAdd x) = Ok (q2, s2, Threw).
Proof.
  intros T St cmp debug s ops HL. apply (run_bag T St cmp debug ops s [] []); [exact HL|]. apply Permutation_refl.
Qed.
Print Assumptions C134_exceptions_partial.

(** The item that a throwing pop loses is the one it would have returned. *)
Theorem C134_pop_exception_loses_the_top : forall T St (cmp : St -> T -> T -> option bool * St) debug s q S q' s',
  holds q S -> step cmp debug s q PPop = Ok (q', s', Threw) ->
  exists x S', step cmp debug s q PPeek = Ok (q, s, Out (RVal x)) /\ Permutation S (x :: S') /\ holds q' S'.
Proof.
  intros T St cmp debug s q S q' s' HS E.
  assert (Hm : may_call T q (@PPop T)).
  { intros ->. cbn in E. destruct debug; discriminate. }
  destruct q as [|[x|] q]; [now destruct Hm| |].
  2:{ exfalso. apply (holds_nohole T _ S HS). now left. }
  assert (Epop : exists l' th, pop cmp debug s (Some x :: q) = Ok (x, l', s', th) /\ l' = q').
  { cbn [step] in E. destruct (pop cmp debug s (Some x :: q)) as [[[[y l'] s1] th]| |] eqn:Ep; cbn [bind] in E; try discriminate.
    assert (y = x) as ->.
    { unfold pop, assert_ in Ep. cbn [empty negb] in Ep. rewrite andb_false_r in Ep. cbn [bind] in Ep.
      unfold take at 1 in Ep. unfold val at 1, slot_get at 1 in Ep. cbn [nth_error bind] in Ep.
      destruct (length (upd (Some x :: q) 0 None) =? 1); [congruence|].
      destruct (take T (upd (Some x :: q) 0 None) _) as [[b l2]| |]; try discriminate. cbn [bind] in Ep.
      destruct (put T l2 0 b) as [l3| |]; try discriminate. cbn [bind] in Ep.
      destruct (propagateDown cmp s (removelast l3) 0) as [[[l4 s4] th4]| |]; try discriminate. cbn [bind] in Ep. congruence. }
    injection E as -> -> _. eauto. }
  destruct Epop as (l' & th & Ep & ->).
  destruct (pop_cells T St cmp debug s (Some x :: q) Hm) as [(Ex & _)|(y & l1 & s1 & th1 & Ex & HP)]; rewrite Ep in Ex; [discriminate|].
  injection Ex as <- <- <- <-. apply Permutation_cons_inv in HP.
  destruct (nohole_holds T q') as [S' ->].
  { intros Hn. apply (holds_nohole T _ S HS). right. exact (Permutation_in _ (Permutation_sym HP) Hn). }
  exists x, S'. split; [|split; [|apply Permutation_refl]].
  - cbn. unfold peek, assert_. cbn [empty negb]. rewrite andb_false_r. reflexivity.
  - apply map_some_perm. cbn [map]. rewrite <- HS. now apply perm_skip.
Qed.
Print Assumptions C134_pop_exception_loses_the_top.

(** A history in which nothing was thrown is one of the queue of C28 and C129 (with the answers given). *)
Theorem C134_without_exceptions : forall T St (cmp : St -> T -> T -> option bool * St) debug ops s q q' s' rs,
  run cmp debug s q ops = Ok (q', s', map Out rs) ->
  exists cs, PQCostModel.run (fun s a b => (match fst (cmp s a b) with Some b => b | None => false end, snd (cmp s a b)))
               debug (World s []) q ops = Ok (q', World s' cs, rs).
Proof.
  intros T St cmp debug ops s q q' s' rs E.
  exact (run_same T St cmp debug ops s [] q q' s' rs E).
Qed.
Print Assumptions C134_without_exceptions.

(** Concrete runs: a comparator (smaller first) that throws at its [k]-th call. *)
Definition ex_cmp (k : nat) (n a b : nat) : option bool * nat := ((if n =? k then None else Some (a <? b)), S n).
Example C134_nonvacuous :
  run (ex_cmp 2) true 0 [] [PAdd 5; PAdd 7; PAdd 6; PAdd 1; PPeek]
    = Ok ([Some 5; Some 7; Some 6; None], 3, [Out RNone; Out RNone; Out RNone; Threw; Out (RVal 5)])
  /\ run (ex_cmp 2) true 0 [] [PAdd 5; PAdd 7; PAdd 6; PAdd 1; PPop] = Fault MovedFrom
  /\ (* halfway up: the 7 has been moved down already *)
     run (ex_cmp 3) true 0 [] [PAdd 5; PAdd 7; PAdd 6; PAdd 1]
       = Ok ([Some 5; None; Some 6; Some 7], 4, [Out RNone; Out RNone; Out RNone; Threw])
  /\ (* a pop throws: the 1 is lost, and the order with it *)
     run (ex_cmp 4) true 0 [] [PAdd 1; PAdd 2; PAdd 3; PAdd 4; PAdd 5; PPop; PPeek; PPop; PPop; PEmpty]
       = Ok ([Some 3; Some 4], 8, [Out RNone; Out RNone; Out RNone; Out RNone; Out RNone; Threw; Out (RVal 5);
                                   Out (RVal 5); Out (RVal 2); Out (RBool false)]).
Proof. vm_compute. repeat split. Qed.
