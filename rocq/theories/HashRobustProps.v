(** C118: hash tables under an arbitrary HashPolicy. *)
From Verif Require Import Base HashTableModel HashTableSpec HashRobustModel HashRobustSpec HashRobustProofs.
Local Open Scope N_scope.

(** Whatever [hash] and [matches] answer, and even if they answer differently from call to call: every history terminates,
    touches no memory it does not own, constructs and destroys every payload exactly once (HashTableModel faults otherwise),
    and behaves as a bag.  It can end early only by running out of memory, or (debug builds) at the capacity limit. *)
Theorem C118_any_policy :
  forall (Key Payload : Type) (dflt : Payload) (c : cfg) (capacity : N) (xs : list (call Key Payload)),
  config_ok c -> capacity_ok c capacity ->
  let ops := map the_op xs in
  match rlife dflt c capacity xs with
  | Ok (_, outs) => exists S, bag_run (fun alloc => aborts c = false /\ (alloc = false \/ near_limit c ops)) [] xs outs S
  | Fault Abort => aborts c = true /\ (Exists (fun o => alloc_refused o = true) ops \/ near_limit c ops)
  | Fault AssertFail => debug c = true /\ near_limit c ops
  | _ => False
  end.
Proof.
  intros Key Payload dflt c capacity xs Hk Hc ops.
  destruct (rlife_ok Key Payload dflt c _ capacity xs eq_refl Hk Hc) as [(?&?&E)|[(?&?&E)|(t & outs & S & E & H)]];
    rewrite E; eauto.
Qed.
Print Assumptions C118_any_policy.

(** The books balance: the payloads an iteration yields are those added so far, less those removed; so are the payloads the
    final [elements()] counts.  Put differently, no payload can be lost: after any history with granted allocations that
    only adds, looks up and iterates, an iteration yields exactly the payloads reported as added. *)
Definition only_grows (x : call nat nat) : Prop :=
  match the_op x with OAdd _ _ true | OFind _ | OFindForAdd _ | OIterate | OElements => True | _ => False end.
Fixpoint reported_added (rs : list (out nat)) : list nat :=
  match rs with [] => [] | RAdded p :: r => p :: reported_added r | _ :: r => reported_added r end.
Lemma grows_bag mf S xs rs S' : ~ mf true -> bag_run mf S xs rs S' -> Forall only_grows xs ->
  Permutation S' (S ++ reported_added rs).
Proof.
  intros Hf. induction 1 as [S|S x r S1 xs rs S2 Hs Hr IH]; intros HF.
  { cbn. now rewrite app_nil_r. }
  inversion HF as [|? ? Hx HF']; subst. specialize (IH HF'). rewrite IH.
  destruct x as [hf ma o]. unfold only_grows in Hx. cbn [the_op] in Hx.
  destruct o as [k p [|]| | | | | | | | | | | | ]; try contradiction; cbn in Hs.
  - destruct Hs as [(q & rest & _ & _ & -> & HP)|[(-> & HP)|(_ & _ & Hm)]].
    + cbn. now rewrite HP.
    + cbn. unfold pick in HP. rewrite HP. cbn. apply Permutation_middle.
    + contradiction.
  - destruct Hs as [(q & rest & _ & _ & -> & HP)|(-> & HP)]; cbn; now rewrite HP.
  - destruct Hs as [(q & rest & _ & _ & -> & HP)|(-> & HP)]; cbn; now rewrite HP.
  - destruct Hs as (l & -> & _ & HP). cbn. now rewrite HP.
  - destruct Hs as (-> & HP). cbn. now rewrite HP.
Qed.
Lemma bag_run_snoc {K P} mf : forall (S : list P) (xs : list (call K P)) x rs S', bag_run mf S (xs ++ [x]) rs S' ->
  exists S1 rs1 r, bag_run mf S xs rs1 S1 /\ rs = rs1 ++ [r] /\ bag_step mf S1 x r S'.
Proof.
  intros S xs x. revert S. induction xs as [|y xs IH]; intros S rs S' H; cbn in H.
  - inversion H as [|? ? r S1 ? rs' ? Hs Hr]; subst. inversion Hr; subst. exists S, [], r. repeat split; auto. constructor.
  - inversion H as [|? ? r S1 ? rs' ? Hs Hr]; subst. destruct (IH _ _ _ Hr) as (S2 & rs1 & r' & H1 & -> & H2).
    exists S2, (r :: rs1), r'. repeat split; auto. econstructor; eauto.
Qed.
Theorem C118_nothing_lost :
  forall (c : cfg) capacity (xs : list (call nat nat)) hf ma t outs,
  config_ok c -> capacity_ok c capacity -> ~ near_limit c (map the_op xs) ->
  Forall only_grows xs ->
  rlife 0%nat c capacity (xs ++ [Call hf ma OIterate]) = Ok (t, outs) ->
  exists outs1 l, outs = outs1 ++ [RList l] /\ Permutation l (reported_added outs1).
Proof.
  intros c capacity xs hf ma t outs Hk Hc Hn HF E.
  pose proof (C118_any_policy nat nat 0%nat c capacity (xs ++ [Call hf ma OIterate]) Hk Hc) as H. cbv zeta in H.
  rewrite E in H. destruct H as (S & H). apply bag_run_snoc in H as (S1 & rs1 & r & H1 & -> & H2).
  cbn in H2. destruct H2 as (l & -> & Hl & _). exists rs1, l. split; [reflexivity|]. rewrite Hl.
  apply (grows_bag _ [] xs rs1 S1) in H1; auto.
  intros [_ [Hf|Hf]]; [discriminate|]. apply Hn. unfold near_limit in *. rewrite map_app, filter_app in Hf. cbn in Hf.
  now rewrite app_nil_r in Hf.
Qed.
Print Assumptions C118_nothing_lost.

(** A policy that changes its mind: [hash] differs from call to call and [matches] is always or never true. *)
Definition wild : list (call nat nat) :=
  map (fun i => Call (fun k => N.of_nat (k * i)) (fun _ _ => Nat.even (i / 7)) (OAdd i (10 * i)%nat true)) (seq 1 30) ++
  [Call (fun _ => 5) (fun k p => Nat.eqb k p) (OFind 40%nat);
   Call (fun _ => 4) (fun _ _ => true) (ORemove 1%nat);
   Call (fun _ => 841) (fun _ _ => true) (OUpdate 29%nat 7%nat);
   Call (fun _ => 0) (fun _ _ => false) OElements;
   Call (fun _ => 0) (fun _ _ => false) OIterate].
Example C118_nonvacuous :
  match rlife 0%nat (Cfg 24 true true) 16 wild with
  | Ok (_, outs) =>
      (length (reported_added outs) >= 14)%nat /\ In RAbsent outs /\ (exists q, In (RFound q) outs) /\
      exists n l, In (RNum n) outs /\ In (RList l) outs /\ N.of_nat (length l) = n
  | _ => False
  end.
Proof.
  vm_compute. split; [lia|]. split; [tauto|]. split.
  - eexists. repeat (first [left; reflexivity | right]).
  - eexists _, _. split; [|split].
    1, 2: repeat (first [left; reflexivity | right]).
    reflexivity.
Qed.
Lemma wild_config : config_ok (Cfg 24 true true) /\ capacity_ok (Cfg 24 true true) 16.
Proof. split; [unfold config_ok; vm_compute; discriminate|]. right. split; [now exists 4|]. vm_compute. intuition discriminate. Qed.
