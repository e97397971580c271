(** Property theorems C138: am-priority-queue.h with items whose moves throw. *)
From Verif Require Import Base PQModel PQSpec PQProofs PQMoveModel PQMoveSpec PQMoveProofs.

(** Full statement (false): an exception from a move leaves a queue that holds the items it should, in order.  Once the new
    item has been taken out of its cell (propagateUp takes it out of every add to a queue with items), the next move, of
    which there always is one, may throw: the item is lost, and a moved-from item stays in the queue. *)
Theorem C138_add_exception_refuted : forall T (hp : T -> T -> bool) debug throws elided n S x,
  S <> [] -> throws n = false -> throws (n + 1) = false -> throws (n + 2) = true ->
  exists q, step hp debug throws elided n (map Some S) (PAdd x) = Ok (q, n + 3, None) /\ holed q S.
Proof.
  intros T hp debug throws elided n L x HL T0 T1 T2. replace (n + 3) with (Datatypes.S (Datatypes.S (Datatypes.S n))) by lia.
  replace (n + 1) with (Datatypes.S n) in T1 by lia. replace (n + 2) with (Datatypes.S (Datatypes.S n)) in T2 by lia.
  assert (Hn : 0 < length L) by (destruct L; [congruence|cbn; lia]). clear HL.
  assert (HQ : Permutation (upd (full T (L ++ [x])) (length L) None) (None :: map Some L)).
  { destruct (hole_perm T (L ++ [x]) (length L) x) as (S' & P & Q).
    - rewrite nth_error_app2, Nat.sub_diag by lia. reflexivity.
    - rewrite Q. apply perm_skip, Permutation_map. apply (Permutation_cons_inv (a := x)). rewrite <- P. symmetry. apply Permutation_cons_append. }
  cbn [step]. unfold add. rewrite T0. change (map Some L) with (full T L).
  assert (E : full T L ++ [Some x] = full T (L ++ [x])) by (unfold full; now rewrite map_app).
  rewrite E, full_length, app_length. cbn [length]. rewrite (proj2 (Nat.ltb_lt 1 _)) by lia.
  replace (length L + 1 - 1) with (length L) by lia. unfold propagateUp, take.
  rewrite (val_full T (L ++ [x]) (length L) x) by (rewrite nth_error_app2, Nat.sub_diag by lia; reflexivity).
  cbn [bind]. rewrite T1. cbn [up_loop]. rewrite (proj2 (Nat.eqb_neq (length L) 0)) by lia.
  unfold parentOf, assert_. rewrite (proj2 (Nat.ltb_lt 0 _)) by lia. cbn [negb]. rewrite andb_false_r. cbn [bind].
  assert (Hp : (length L - 1) / 2 < length L) by (apply Nat.div_lt_upper_bound; lia).
  destruct (nth_ex L _ Hp) as [pv Hpv].
  rewrite (val_hole T (L ++ [x]) ((length L - 1) / 2) (length L) pv) by (rewrite ?nth_error_app1 by lia; auto; lia).
  cbn [bind]. destruct (hp x pv); cbn [negb]; [|cbn [bind]]; rewrite T2; cbn [bind]; eexists; (split; [reflexivity|exact HQ]).
Qed.
Print Assumptions C138_add_exception_refuted.

(** When the move before that throws, the item is in the queue although add() threw, and in last place whatever its priority:
    the queue goes on to offer items that do not have the highest priority. *)
Theorem C138_order_refuted : forall T (hp : T -> T -> bool) debug throws elided n y S x,
  throws n = false -> throws (n + 1) = true ->
  exists q, step hp debug throws elided n (map Some (y :: S)) (PAdd x) = Ok (q, n + 2, None)
    /\ q = map Some (y :: S ++ [x])
    /\ step hp debug throws elided (n + 2) q PPeek = Ok (q, n + 2, Some (RVal y))
    /\ (hp x y = true -> ~ maximal hp y (y :: S ++ [x])).
Proof.
  intros T hp debug throws elided n y L x T0 T1. replace (n + 2) with (S (S n)) by lia. replace (n + 1) with (S n) in T1 by lia.
  eexists. split; [|split; [reflexivity|split]].
  - cbn [step]. unfold add. rewrite T0. change (map Some (y :: L)) with (full T (y :: L)).
    assert (E : full T (y :: L) ++ [Some x] = full T ((y :: L) ++ [x])) by (unfold full; now rewrite map_app).
    rewrite E, full_length, app_length. cbn [length]. rewrite (proj2 (Nat.ltb_lt 1 _)) by lia.
    unfold propagateUp, take. replace (S (length L) + 1 - 1) with (length (y :: L)) by (cbn; lia).
    rewrite (val_full T ((y :: L) ++ [x]) (length (y :: L)) x) by (rewrite nth_error_app2, Nat.sub_diag by lia; reflexivity).
    cbn [bind]. rewrite T1. reflexivity.
  - cbn [step]. unfold peek, assert_. cbn [map empty negb]. rewrite andb_false_r. reflexivity.
  - intros H [_ M]. specialize (M x). rewrite H in M. discriminate M. right. apply in_or_app. right. now left.
Qed.
Print Assumptions C138_order_refuted.

(** A pop from a queue of two or more whose second move throws loses the item, and leaves a moved-from item in first place, which
    the next peek shows. *)
Theorem C138_pop_exception_refuted : forall T (hp : T -> T -> bool) debug throws elided n x y S,
  throws n = false -> throws (n + 1) = true ->
  step hp debug throws elided n (map Some (x :: y :: S)) PPop = Ok (None :: map Some (y :: S), n + 2, None)
  /\ forall m, step hp debug throws elided m (None :: map Some (y :: S)) PPeek = Fault MovedFrom.
Proof.
  intros T hp debug throws elided n x y L T0 T1. replace (n + 2) with (S (S n)) by lia. replace (n + 1) with (S n) in T1 by lia. split.
  - cbn [step]. unfold pop, assert_. cbn [map empty negb]. rewrite andb_false_r. cbn [bind]. unfold take at 1, val, slot_get.
    cbn [nth_error bind upd length]. rewrite T0. cbn [length Nat.eqb]. unfold take, val, slot_get. cbn [length].
    replace (S (S (length (map Some L))) - 1) with (length (map Some (y :: L))) by (cbn; lia).
    destruct (nth_ex (@None T :: map Some (y :: L)) (length (map Some (y :: L)))) as [c Hc]; [cbn; lia|].
    assert (exists z, c = Some z) as [z ->].
    { cbn [map length nth_error] in Hc. apply nth_error_In in Hc. change (In c (map Some (y :: L))) in Hc.
      apply in_map_iff in Hc as (z & <- & _). eauto. }
    change (None :: Some y :: map Some L) with (@None T :: map Some (y :: L)). rewrite Hc. cbn [bind]. rewrite T1. reflexivity.
  - intros m. cbn [step]. unfold peek, assert_. cbn [map empty negb]. rewrite andb_false_r. reflexivity.
Qed.
Print Assumptions C138_pop_exception_refuted.

(** What holds: on a queue without moved-from items no call faults; a call that does not throw is that of a bag of items, and
    what one that throws may lose is at most the item added, or the item to be returned and one more. *)
Theorem C138_exceptions_partial : forall T (hp : T -> T -> bool) debug throws elided n S o,
  legal (length S) [o] ->
  exists q n' r, step hp debug throws elided n (map Some S) o = Ok (q, n', r)
    /\ match r with
       | Some r => exists S', q = map Some S' /\ bag_step T hp false S o r S'
       | None => after_throw (map Some S) S o q
       end.
Proof.
  intros T hp debug throws elided n L o HL. destruct o as [x| | | |]; cbn [step].
  - destruct (add_all T hp debug throws n L x) as (q & n' & th & E & H). change (map Some L) with (full T L) at 1. rewrite E. cbn [bind].
    eexists _, _, _. split; [reflexivity|]. destruct th; [exact H|]. destruct H as (L' & -> & P). exists L'. split; [reflexivity|]. now split.
  - destruct L as [|x L]; [cbn in HL; lia|].
    destruct (pop_all T hp debug throws elided n x L) as (q & n' & r & E & H). change (map Some (x :: L)) with (full T (x :: L)) at 1. rewrite E. cbn [bind].
    eexists _, _, _. split; [reflexivity|]. destruct r as [y|]; cbn [option_map].
    + destruct H as [-> (L' & -> & P)]. exists L'. split; [reflexivity|]. exists x. repeat split; [now left|]. now rewrite P.
    + cbn [after_throw]. destruct H as [->|H]; [now left|]. right. exists x, L. split; [reflexivity|]. split; [reflexivity|].
      destruct H as [(L' & -> & P)|[H|(y & S' & P & H)]]; [left; exists L'; auto|right; left; exact H|right; right; exists y, S'; auto].
  - destruct L as [|x L]; [cbn in HL; lia|]. unfold peek, assert_. cbn [map empty negb]. rewrite andb_false_r. cbn [bind].
    unfold val, slot_get. cbn [nth_error bind]. eexists _, _, _. split; [reflexivity|]. exists (x :: L). split; [reflexivity|].
    exists x. repeat split; [now left|reflexivity].
  - eexists _, _, _. split; [reflexivity|]. exists L. split; [reflexivity|]. split; [now destruct L|reflexivity].
  - eexists _, _, _. split; [reflexivity|]. exists L. split; [reflexivity|]. split; reflexivity.
Qed.
Print Assumptions C138_exceptions_partial.

(** A call that does not throw is the call of the queue of C28, so the priorities are right as long as nothing throws. *)
Theorem C138_without_exceptions : forall T (hp : T -> T -> bool) debug throws elided n q o q' n' r,
  step hp debug throws elided n q o = Ok (q', n', Some r) -> PQModel.step hp debug q o = Ok (q', r).
Proof. intros T hp debug throws elided n q o q' n' r. apply step_same. Qed.
Print Assumptions C138_without_exceptions.

(** A call throws if and only if one of the moves it makes throws, and then it makes no further move; add() and pop() make at
    least one. *)
Theorem C138_throws_iff_a_move_throws : forall T (hp : T -> T -> bool) debug throws elided n q o q' n' r,
  step hp debug throws elided n q o = Ok (q', n', r) ->
  (r = None <-> exists k, n <= k < n' /\ throws k = true)
  /\ (forall k, n <= k < n' -> throws k = true -> n' = k + 1)
  /\ match o with PAdd _ | PPop => n < n' | _ => n' = n end.
Proof.
  intros T hp debug throws elided n q o q' n' r E. destruct (step_tidy T hp debug throws elided n q o q' n' r E) as [(A & B & C) D].
  split; [|split].
  - split.
    + intros ->. cbn in *. specialize (C eq_refl). exists (n' - 1). split; [lia|]. apply B; [lia|lia|]. split; [reflexivity|lia].
    + intros (k & Hk & Ht). apply B in Ht; [|lia|lia]. destruct r; [destruct Ht; discriminate|reflexivity].
  - intros k Hk Ht. apply B in Ht; lia.
  - destruct o as [x| | | |]; auto; cbn [step] in E; try congruence. destruct (peek T debug q); cbn [bind] in E; congruence.
Qed.
Print Assumptions C138_throws_iff_a_move_throws.

(** Histories: until a call throws, every result is that of a bag from which the item of highest priority is taken (if the
    comparator is a strict weak order; of any bag otherwise), and the first call that throws leaves what [after_throw] says. *)
Lemma run_first T (hp : T -> T -> bool) debug throws elided b : forall ops n L,
  ordered_ok T hp b L -> legal (length L) ops ->
  (exists n' rs S, run hp debug throws elided n (map Some L) ops = Ok (map Some S, n', map Some rs) /\ bag_run hp b L ops rs S)
  \/ exists pre o post n1 rs S q2 n2, ops = pre ++ o :: post
       /\ run hp debug throws elided n (map Some L) pre = Ok (map Some S, n1, map Some rs) /\ bag_run hp b L pre rs S
       /\ step hp debug throws elided n1 (map Some S) o = Ok (q2, n2, None) /\ after_throw (map Some S) S o q2.
Proof.
  induction ops as [|o ops IH]; intros n L Hb Hl.
  - left. exists n, [], L. split; [reflexivity|constructor].
  - assert (Hleg : legal (length L) [o]) by (destruct o; cbn in *; tauto).
    destruct (C138_exceptions_partial T hp debug throws elided n L o Hleg) as (q & n' & r & E & H). destruct r as [r|].
    + destruct H as (L1 & -> & _). pose proof (step_same T hp debug throws elided _ _ _ _ _ _ E) as E1.
      destruct (step_ok T hp debug b L o Hb) as (L1' & r' & E2 & Hs & Hb1 & Hlen); [destruct o; cbn in Hl; tauto|].
      change (full T L) with (map Some L) in E2. rewrite E1 in E2. injection E2 as E2 <-.
      assert (L1' = L1) as ->.
      { clear -E2. revert L1' E2. unfold full. induction L1 as [|a L1 IH]; intros [|c L'] E; cbn in E; try discriminate; [reflexivity|].
        injection E as <- E. now rewrite (IH L'). }
      destruct (IH n' L1 Hb1) as [(n2 & rs & S & Er & Hr)|(pre & o' & post & n1 & rs & S & q2 & n2 & -> & Er & Hr & Et & Ha)].
      { rewrite Hlen. destruct o; cbn in Hl |- *; tauto. }
      * left. exists n2, (r :: rs), S. cbn [run]. rewrite E. cbn [bind]. rewrite Er. cbn [bind]. split; [reflexivity|]. econstructor; eauto.
      * right. exists (o :: pre), o', post, n1, (r :: rs), S, q2, n2. split; [reflexivity|]. cbn [run]. rewrite E. cbn [bind]. rewrite Er.
        cbn [bind]. split; [reflexivity|]. split; [econstructor; eauto|]. auto.
    + right. exists [], o, ops, n, [], L, q, n'. split; [reflexivity|]. split; [reflexivity|]. split; [constructor|]. auto.
Qed.
Theorem C138_histories_partial : forall T (hp : T -> T -> bool) debug throws elided ordered ops,
  (ordered = true -> strict_weak_order hp) -> legal 0 ops ->
  (exists n rs S, run hp debug throws elided 0 [] ops = Ok (map Some S, n, map Some rs) /\ bag_run hp ordered [] ops rs S)
  \/ exists pre o post n1 rs S q2 n2, ops = pre ++ o :: post
       /\ run hp debug throws elided 0 [] pre = Ok (map Some S, n1, map Some rs) /\ bag_run hp ordered [] pre rs S
       /\ step hp debug throws elided n1 (map Some S) o = Ok (q2, n2, None) /\ after_throw (map Some S) S o q2.
Proof.
  intros T hp debug throws elided b ops So HL. apply (run_first T hp debug throws elided b ops 0 []); [|exact HL].
  intros E. split; [now apply So|]. apply heap_nil.
Qed.
Print Assumptions C138_histories_partial.

(** Concrete runs: smaller numbers first, the k-th move throws. *)
Definition ex_step (k n : nat) := step Nat.ltb true (fun i => i =? k) false n.
Example C138_adds : ex_step 0 0 (map Some [3; 5; 4]) (PAdd 1) = Ok (map Some [3; 5; 4], 1, None)
  /\ ex_step 1 0 (map Some [3; 5; 4]) (PAdd 1) = Ok (map Some [3; 5; 4; 1], 2, None)
  /\ ex_step 2 0 (map Some [3; 5; 4]) (PAdd 1) = Ok ([Some 3; Some 5; Some 4; None], 3, None)
  /\ ex_step 3 0 (map Some [3; 5; 4]) (PAdd 1) = Ok ([Some 3; None; Some 4; Some 5], 4, None)
  /\ ex_step 4 0 (map Some [3; 5; 4]) (PAdd 1) = Ok ([None; Some 3; Some 4; Some 5], 5, None)
  /\ ex_step 5 0 [] (PAdd 1) = Ok ([Some 1], 1, Some RNone)
  /\ ex_step 5 0 (map Some [3; 5; 4]) (PAdd 1) = Ok (map Some [1; 3; 4; 5], 5, Some RNone).
Proof. repeat split; reflexivity. Qed.
Example C138_pops : ex_step 0 0 (map Some [1; 3; 4; 5]) PPop = Ok (map Some [1; 3; 4; 5], 1, None)
  /\ ex_step 1 0 (map Some [1; 3; 4; 5]) PPop = Ok ([None; Some 3; Some 4; Some 5], 2, None)
  /\ ex_step 2 0 (map Some [1; 3; 4; 5]) PPop = Ok (map Some [5; 3; 4], 3, None)
  /\ ex_step 3 0 (map Some [1; 3; 4; 5]) PPop = Ok ([Some 5; None; Some 4], 4, None)
  /\ ex_step 4 0 (map Some [1; 3; 4; 5]) PPop = Ok ([None; Some 5; Some 4], 5, None)
  /\ ex_step 5 0 (map Some [1; 3; 4; 5]) PPop = Ok (map Some [3; 5; 4], 6, None)
  /\ ex_step 6 0 (map Some [1; 3; 4; 5]) PPop = Ok (map Some [3; 5; 4], 6, Some (RVal 1)).
Proof. repeat split; reflexivity. Qed.
Definition ex_run (k : nat) := run Nat.ltb true (fun i => i =? k) true 0 [] [PAdd 3; PAdd 5; PPop; PAdd 4; PAdd 1; PAdd 2; PPop; PPeek].
(** Nothing throws; the last add throws; the pop throws (the item 1 is lost, and 5 is offered before 2 and 4). *)
Example C138_histories : ex_run 99 = Ok (map Some [2; 5; 4], 23,
    [Some RNone; Some RNone; Some (RVal 3); Some RNone; Some RNone; Some RNone; Some (RVal 1); Some (RVal 2)])
  /\ ex_run 15 = Ok (map Some [2; 5; 4], 18,
    [Some RNone; Some RNone; Some (RVal 3); Some RNone; Some RNone; None; Some (RVal 1); Some (RVal 2)])
  /\ ex_run 20 = Ok (map Some [5; 2; 4], 21,
    [Some RNone; Some RNone; Some (RVal 3); Some RNone; Some RNone; Some RNone; None; Some (RVal 5)]).
Proof. repeat split; reflexivity. Qed.
Example C138_hypotheses : strict_weak_order Nat.ltb /\ legal 0 [PAdd 3; PAdd 5; PPop; PAdd 4; PAdd 1; PAdd 2; PPop; @PPeek nat].
Proof.
  split; [|cbn; lia]. repeat split.
  - intros a. apply Nat.ltb_irrefl.
  - intros a b c H1 H2. apply Nat.ltb_lt in H1, H2. apply Nat.ltb_lt. lia.
  - intros a b c H1 H2. apply Nat.ltb_ge in H1, H2. apply Nat.ltb_ge. lia.
Qed.
