(** Properties C28-C30: PriorityQueue.  Statements only. *)
From Verif Require Import Base PQModel PQSpec PQProofs.

(** ** C28 *)
Theorem C28_pops_in_priority_order :
  forall (T : Type) (hp : T -> T -> bool) (debug : bool), strict_weak_order hp ->
  forall ops : list (op T), legal 0 ops ->
  exists q outs S, run hp debug [] ops = Ok (q, outs) /\ bag_run hp true [] ops outs S.
Proof.
  intros T hp debug So ops Hl.
  destruct (run_ok T hp debug true ops [] (fun _ => conj So (heap_nil T hp)) Hl) as (L & outs & E & H).
  exists (full T L), outs, L. exact (conj E H).
Qed.
Print Assumptions C28_pops_in_priority_order.

(** A strict weak order with ties: compare the first components. *)
Definition ex_hp (a b : nat * nat) : bool := fst a <? fst b.
Example C28_nonvacuous :
  strict_weak_order ex_hp /\
  legal 0 [PAdd (3, 0); PAdd (1, 1); PAdd (2, 2); PPop; PAdd (0, 3); PMove; PAdd (2, 4); PPeek; PPop; PPop; PEmpty] /\
  match run ex_hp true [] [PAdd (3, 0); PAdd (1, 1); PAdd (2, 2); PPop; PAdd (0, 3); PMove; PAdd (2, 4); PPeek; PPop; PPop; PEmpty] with
  | Ok (_, outs) => outs = [RNone; RNone; RNone; RVal (1, 1); RNone; RNone; RNone; RVal (0, 3); RVal (0, 3); RVal (2, 4); RBool false]
  | _ => False
  end.
Proof.
  split; [|split; [cbn; lia|vm_compute; reflexivity]].
  unfold strict_weak_order, ex_hp. repeat split; intros; lia.
Qed.

(** ** C29 *)
Theorem C29_draining_sorts :
  forall (T : Type) (hp : T -> T -> bool) (debug : bool), strict_weak_order hp ->
  forall xs : list T, exists ys, sort_with hp debug xs = Ok ys /\ Permutation ys xs /\ sorted hp ys.
Proof.
  intros T hp debug So xs. destruct (sort_ok T hp debug xs) as (ys & E & HP & HS).
  exists ys. exact (conj E (conj HP (HS So))).
Qed.
Print Assumptions C29_draining_sorts.
Example C29_nonvacuous :
  sort_with ex_hp true [(5, 0); (1, 1); (4, 2); (1, 3); (3, 4); (9, 5); (2, 6); (6, 7)] =
  Ok [(1, 1); (1, 3); (2, 6); (3, 4); (4, 2); (5, 0); (6, 7); (9, 5)].
Proof. vm_compute. reflexivity. Qed.

(** ** C30 *)
(** For ANY comparator no operation touches a moved-from or out-of-range element (those are faults of the model),
    elements are neither lost nor duplicated; popping or peeking an empty queue is the only misuse. *)
Theorem C30_no_moved_from_access :
  forall (T : Type) (hp : T -> T -> bool) (debug : bool) (ops : list (op T)),
  (legal 0 ops -> exists q outs S, run hp debug [] ops = Ok (q, outs) /\ bag_run hp false [] ops outs S /\
                   q = map Some S) /\
  (~ legal 0 ops -> run hp debug [] ops = Fault (if debug then AssertFail else OutOfBounds)).
Proof.
  intros T hp debug ops. split.
  - intros Hl. destruct (run_ok T hp debug false ops [] ltac:(discriminate) Hl) as (L & outs & E & H).
    exists (map Some L), outs, L. exact (conj E (conj H eq_refl)).
  - exact (illegal_faults T hp debug ops []).
Qed.
Print Assumptions C30_no_moved_from_access.
Example C30_nonvacuous :
  (* a comparator that is not an order *)
  sort_with (fun _ _ : nat => true) true [1; 2; 3; 4] = Ok [4; 2; 3; 1] /\
  run (fun _ _ : nat => true) true [] [PAdd 1; PPop; PPop] = Fault AssertFail.
Proof. vm_compute. auto. Qed.
