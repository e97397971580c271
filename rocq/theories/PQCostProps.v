(** Property C129 (amtl/am-priority-queue.h): the comparator may be any callable, and is called a logarithmic number of times. *)
From Verif Require Import Base PQModel PQSpec PQProofs PQCostModel PQCostSpec PQCostProofs.

(** Whatever the comparator answers, and however its answers depend on the calls before, no legal history faults and no item is
    lost or made up ... *)
Theorem C129_any_comparator :
  forall (T St : Type) (cmp : St -> T -> T -> bool * St) (debug : bool) (w : world T St) (ops : list (op T)), legal 0 ops ->
  exists q w' outs S, run cmp debug w [] ops = Ok (q, w', outs) /\ bag_run (fun _ _ => false) false [] ops outs S /\ q = map Some S.
Proof.
  intros T St cmp debug w ops L. destruct (run_ok T St cmp debug ops w [] L) as (S & w' & outs & E & B).
  exists (map Some S), w', outs, S. repeat split; assumption.
Qed.
Print Assumptions C129_any_comparator.
(** ... an add to n items makes at most log2 (n + 1) calls, a pop from n items at most 2 * log2 (n - 1), the other members none,
    and only items that are in the queue are compared. *)
Theorem C129_logarithmic :
  forall (T St : Type) (cmp : St -> T -> T -> bool * St) (debug : bool) (w : world T St) (ops : list (op T)), legal 0 ops ->
  exists costs, frugal cmp debug w [] ops costs.
Proof. intros T St cmp debug w ops L. exact (frugal_ok T St cmp debug ops w [] L). Qed.
Print Assumptions C129_logarithmic.
(** Adding n items and popping them all makes at most 3 * n * log2 n calls. *)
Theorem C129_sorting :
  forall (T St : Type) (cmp : St -> T -> T -> bool * St) (debug : bool) (w : world T St) (xs : list T),
  exists w' outs, run cmp debug w [] (map PAdd xs ++ repeat PPop (length xs)) = Ok ([], w', outs) /\
    length (calls w') <= length (calls w) + 3 * length xs * Nat.log2 (length xs).
Proof.
  intros T St cmp debug w xs. rewrite run_app.
  destruct (adds_cost T St cmp debug xs w []) as (L1 & w1 & o1 & E1 & N1 & C1). cbn [full map length] in *. rewrite E1. cbn [bind].
  destruct (pops_cost T St cmp debug (length xs) w1 L1) as (w2 & o2 & E2 & C2); [symmetry; exact N1|]. rewrite E2. cbn [bind].
  exists w2, (o1 ++ o2). split; [reflexivity|]. cbn [Nat.add] in C1. lia.
Qed.
Print Assumptions C129_sorting.
(** The bounds are attained: an add by every queue, a pop by every queue of 2^k items. *)
Theorem C129_bounds_attained :
  forall (T : Type) (debug : bool) (w : world T unit) (S : list T),
  (forall x, exists q' w', step (yes T) debug w (map Some S) (PAdd x) = Ok (q', w', RNone) /\
     length (calls w') = length (calls w) + bound (PAdd x) (length S)) /\
  (forall k, 0 < k -> length S = 2 ^ k -> exists x q' w', step (yes T) debug w (map Some S) PPop = Ok (q', w', RVal x) /\
     length (calls w') = length (calls w) + @bound T PPop (length S)).
Proof.
  intros T debug w S. split.
  - intros x. destruct (add_worst T debug w S x) as (q' & w' & E & C). cbn [step]. unfold full in E. rewrite E. cbn [bind]. eauto.
  - intros k Hk HS. destruct (pop_worst T debug k w S Hk HS) as (x & q' & w' & E & C). cbn [step]. unfold full in E. rewrite E. cbn [bind].
    exists x, q', w'. split; [reflexivity|exact C].
Qed.
Print Assumptions C129_bounds_attained.
(** For a comparator without state this is the queue of C28-C30. *)
Theorem C129_same_queue :
  forall (T : Type) (hp : T -> T -> bool) (debug : bool) (ops : list (op T)) (w : world T unit) (q : pq T),
  PQModel.run hp debug q ops =
  match run (fun _ a b => (hp a b, tt)) debug w q ops with Ok (q', _, outs) => Ok (q', outs) | Fault f => Fault f | Diverge => Diverge end.
Proof. intros T hp debug ops w q. rewrite (run_pure T hp debug ops w q). unfold drop, bind. destruct (run _ debug w q ops) as [[[? ?] ?]| |]; reflexivity. Qed.
Print Assumptions C129_same_queue.
(** A comparator that answers by the parity of the number of calls so far. *)
Definition moody (n a b : nat) : bool * nat := (Nat.even n, S n).
Example C129_case :
  legal 0 (map PAdd [5; 3; 8; 1] ++ repeat PPop 4) /\
  exists w, run moody true (World 0 []) [] (map PAdd [5; 3; 8; 1] ++ repeat PPop 4) =
    Ok ([], w, [RNone; RNone; RNone; RNone; RVal 3; RVal 5; RVal 1; RVal 8]) /\ length (calls w) = 7.
Proof. split; [cbn; lia|]. eexists. vm_compute. split; reflexivity. Qed.
