(** C136: hash tables under a HashPolicy that has state and may throw. *)
From Verif Require Import Base HashTableModel HashTableSpec HashOracleModel HashOracleSpec HashOracleProofs.
Local Open Scope N_scope.

(** Whatever [hash] and [matches] do each time they are called - answer differently for the same arguments, throw -: every
    history terminates, touches no memory it does not own, constructs and destroys every payload exactly once
    (HashTableModel faults otherwise), and behaves as a bag that a call that throws does not change. *)
Theorem C136_policy_with_state :
  forall (Key Payload : Type) (dflt : Payload) (c : cfg) (capacity : N) (xs : list (ocall Key Payload)),
  config_ok c -> capacity_ok c capacity ->
  let ops := map call_op xs in
  match olife dflt c capacity xs with
  | Ok (_, outs) => exists S, obag_run (fun alloc => aborts c = false /\ (alloc = false \/ near_limit c ops)) [] xs outs S
  | Fault Abort => aborts c = true /\ (Exists (fun o => alloc_refused o = true) ops \/ near_limit c ops)
  | Fault AssertFail => debug c = true /\ near_limit c ops
  | _ => False
  end.
Proof.
  intros Key Payload dflt c capacity xs Hk Hc ops.
  destruct (olife_ok Key Payload dflt c _ capacity xs eq_refl Hk Hc) as [(?&?&E)|[(?&?&E)|(t & outs & S & E & H)]];
    rewrite E; eauto.
Qed.
Print Assumptions C136_policy_with_state.

(** A call that throws leaves the very same table: the same slots, counters and capacity. *)
Theorem C136_throw_changes_nothing :
  forall (Key Payload : Type) (dflt : Payload) (c : cfg) (t t' : table Payload) (x : ocall Key Payload),
  ostep dflt c t x = Ok (t', None) -> t' = t.
Proof.
  intros Key Payload dflt c t t' [hf ma o] E. unfold ostep in E. cbv beta zeta in E. cbn [call_op] in E.
  destruct o as [k p alloc|k p alloc|k p alloc|k p|k|k|k| |alloc| |pred| | ].
  1, 2, 3, 6: destruct (findForAddO c _ t k) as [[i|]| |]; cbn [bind] in E; try congruence;
    match type of E with (do (_, _) <- ?z; _) = _ => destruct z as [[? ?]| |]; cbn [bind] in E; congruence end.
  1, 2: destruct (findO c _ t k) as [[i|]| |]; cbn [bind] in E; try congruence;
    match type of E with (do (_, _) <- ?z; _) = _ => destruct z as [[? ?]| |]; cbn [bind] in E; congruence end.
  { unfold removeIfExistsO in E. destruct (findO c _ t k) as [[i|]| |]; cbn [bind] in E; try congruence.
    destruct (found t i) as [[|]| |]; cbn [bind] in E; try congruence.
    destruct (remove c t i) as [?| |]; cbn [bind] in E; congruence. }
  all: match type of E with (do (_, _) <- ?z; _) = _ => destruct z as [[? ?]| |]; cbn [bind] in E; congruence end.
Qed.
Print Assumptions C136_throw_changes_nothing.

(** A policy that throws at the second comparison of a lookup, at a hash, and that changes its mind within one lookup:
    five equal hashes, the third comparison of every lookup says yes. *)
Definition moody : list (ocall nat nat) :=
  map (fun i => OCall (fun _ => Some 5) (fun _ _ _ => Some false) (OAdd i i true)) (seq 1 5) ++
  [OCall (fun _ => Some 5) (fun n _ _ => Some (Nat.eqb n 2)) (OFind 0%nat);
   OCall (fun _ => Some 5) (fun n _ _ => if Nat.eqb n 1 then None else Some false) (OAdd 9%nat 9%nat true);
   OCall (fun _ => None) (fun _ _ _ => Some true) (ORemove 1%nat);
   OCall (fun _ => Some 5) (fun n _ _ => Some (Nat.eqb n 4)) (ORemove 0%nat);
   OCall (fun _ => None) (fun _ _ _ => None) OIterate].
Example C136_nonvacuous :
  match olife 0%nat (Cfg 24 true true) 16 moody with
  | Ok (_, outs) => outs = map (fun i => Some (RAdded i)) (seq 1 5) ++ [Some (RFound 3%nat); None; None; Some RUnit; Some (RList [4; 1; 2; 3]%nat)]
  | _ => False
  end.
Proof. vm_compute. reflexivity. Qed.
Lemma moody_config : config_ok (Cfg 24 true true) /\ capacity_ok (Cfg 24 true true) 16.
Proof. split; [unfold config_ok; vm_compute; discriminate|]. right. split; [now exists 4|]. vm_compute. intuition discriminate. Qed.
