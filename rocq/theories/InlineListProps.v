(** Properties C31-C34: InlineList.  Statements only. *)
From Verif Require Import Base InlineListModel InlineListSpec InlineListProofs.

(** A history touching two lists, every removal API, iteration in both directions and list destruction. *)
Definition ex_ops : list op :=
  [LNew 0; LNew 1; LAppend 0 10; LAppend 0 11; LAppend 1 12; LAppend 0 13; LAppend 0 14; LRemove 0 11;
   LIterate true 0; LIterate false 0; LEraseIf true (fun n => n =? 13) 0; LAppend 1 11; LUnlink 12;
   LEraseIf false (fun n => n =? 10) 0; LIterate true 1; LEmpty 0; LIsInList 14; LDelete 0; LAppend 1 14; LIterate false 1].

(** ** C31 *)
Theorem C31_insertion_order :
  forall (debug : bool) (ops : list op) (fuel : nat), legal astate0 ops -> appends ops < fuel ->
  exists m outs A, run debug fuel mem0 ops = Ok (m, outs) /\ explains false false astate0 ops outs A.
Proof.
  intros debug ops fuel Hl Hf.
  destruct (run_ok debug fuel ops astate0 mem0 (fun _ => 0) 0 (inv0 debug) Hl) as (m & outs & E & Hx & _); [discriminate|exact Hf|].
  exists m, outs, (after astate0 ops). split; [exact E|]. eapply explains_weaken; eauto.
Qed.
Print Assumptions C31_insertion_order.

Ltac dl :=
  repeat match goal with
  | |- _ /\ _ => split
  | |- True => exact I
  | |- _ <> None => vm_compute; discriminate
  | |- _ = None => reflexivity
  | |- in_list _ _ _ => eexists; split; [reflexivity|vm_compute; tauto]
  | |- in_some _ ?n => match goal with |- _ => (exists 0; eexists; split; [reflexivity|vm_compute; tauto]) || (exists 1; eexists; split; [reflexivity|vm_compute; tauto]) end
  | |- ~ in_some _ _ =>
      let l := fresh "l" in let s := fresh "s" in let E := fresh "E" in let I := fresh "I" in
      intros (l & s & E & I); destruct l as [|[|l]]; vm_compute in E;
      first [discriminate | injection E as <-; vm_compute in I; intuition discriminate]
  end.
Example C31_nonvacuous :
  legal astate0 ex_ops /\
  forall debug, exists m, run debug 9 mem0 ex_ops = Ok (m,
    [RUnit; RUnit; RUnit; RUnit; RUnit; RUnit; RUnit; RUnit;
     RNodes [10; 13; 14]; RNodes [14; 13; 10]; RNodes [10; 13; 14]; RUnit; RUnit;
     RNodes [14; 10]; RNodes [11]; RBool false; RBool true; RUnit; RUnit; RNodes [14; 11]]).
Proof.
  split.
  - unfold ex_ops. cbn [legal pre]. dl.
  - intros []; eexists; vm_compute; reflexivity.
Qed.

(** ** C32 *)
(** The claim: [explains true] (length() equals the number of nodes) for every legal history. *)
Theorem C32_length_exact_refuted :
  forall debug, exists ops, legal astate0 ops /\
    forall fuel, appends ops < fuel ->
    exists m outs, run debug fuel mem0 ops = Ok (m, outs) /\
      ~ exists A, explains true false astate0 ops outs A.
Proof.
  intros debug. exists [LNew 0; LAppend 0 7; LUnlink 7; LLength 0]. split.
  - cbn [legal pre]. dl.
  - intros [|[|f]] Hf; try (vm_compute in Hf; lia).
    eexists _, [_; _; _; _]. split; [destruct debug; vm_compute; reflexivity|].
    intros (A & H). repeat match goal with H : explains _ _ _ (_ :: _) _ _ |- _ => inversion H; subst; clear H end.
    match goal with H : shows _ _ _ (LLength 0) _ |- _ => destruct H as (s & k & Es & Er & Ek) end.
    vm_compute in Es. injection Es as <-. injection Er as <-. specialize (Ek eq_refl). discriminate.
Qed.
Print Assumptions C32_length_exact_refuted.

(** What length() returns in every reachable state: the nodes present plus those that left through
    removeFromParentList. *)
Theorem C32_length_value_partial :
  forall (debug : bool) (ops : list op) (fuel : nat) (l : nat), legal astate0 ops -> appends ops < fuel ->
  after astate0 ops l <> None ->
  exists m outs s, run debug fuel mem0 (ops ++ [LLength l]) =
      Ok (m, outs ++ [RNum ((N.of_nat (length s) + N.of_nat (uafter astate0 ops (fun _ => 0%nat) l)) mod 2 ^ 64)%N]) /\
    after astate0 ops l = Some s.
Proof. exact length_value. Qed.
Print Assumptions C32_length_value_partial.

(** Without removeFromParentList, length() is exact. *)
Theorem C32_length_exact_partial :
  forall (debug : bool) (ops : list op) (fuel : nat), legal astate0 ops -> appends ops < fuel ->
  Forall (fun o => is_unlink o = false) ops ->
  exists m outs A, run debug fuel mem0 ops = Ok (m, outs) /\ explains true false astate0 ops outs A.
Proof.
  intros debug ops fuel Hl Hf Hu.
  destruct (run_ok debug fuel ops astate0 mem0 (fun _ => 0) 0 (inv0 debug) Hl) as (m & outs & E & _); [discriminate|exact Hf|].
  exists m, outs, (after astate0 ops). split; [exact E|].
  assert (X : explains true debug astate0 ops outs (after astate0 ops)).
  { exact (explains_len debug fuel ops astate0 mem0 (fun _ => 0) 0 outs m (inv0 debug) (fun _ => eq_refl) Hl ltac:(discriminate) Hf Hu E). }
  eapply explains_weaken; eauto.
Qed.
Print Assumptions C32_length_exact_partial.
Example C32_nonvacuous :
  legal astate0 [LNew 0; LAppend 0 1; LAppend 0 2; LRemove 0 1; LLength 0; LUnlink 2; LLength 0] /\
  exists m, run true 5 mem0 [LNew 0; LAppend 0 1; LAppend 0 2; LRemove 0 1; LLength 0; LUnlink 2; LLength 0] =
    Ok (m, [RUnit; RUnit; RUnit; RUnit; RNum 1; RUnit; RNum 1]).
Proof. split; [cbn [legal pre]; dl|]. eexists. vm_compute. reflexivity. Qed.

(** ** C33 *)
(** Release builds: remove()/erase() leave the links of the removed node in place. *)
Theorem C33_isInList_exact_refuted :
  exists ops, legal astate0 ops /\
    forall fuel, appends ops < fuel ->
    exists m outs, run false fuel mem0 ops = Ok (m, outs) /\
      ~ exists A, explains false true astate0 ops outs A.
Proof.
  exists [LNew 0; LAppend 0 7; LRemove 0 7; LIsInList 7]. split.
  - cbn [legal pre]. dl.
  - intros [|[|f]] Hf; try (vm_compute in Hf; lia).
    eexists _, _. split; [vm_compute; reflexivity|].
    intros (A & H). repeat match goal with H : explains _ _ _ (_ :: _) _ _ |- _ => inversion H; subst; clear H end.
    match goal with H : shows _ _ _ (LIsInList 7) _ |- _ => destruct H as (b & Er & _ & Eb) end.
    injection Er as <-. destruct (Eb eq_refl eq_refl) as (l & s & Es & Hi).
    destruct l as [|l]; vm_compute in Es; [injection Es as <-; destruct Hi|discriminate].
Qed.
Print Assumptions C33_isInList_exact_refuted.
(** Debug builds: exact in every reachable state. *)
Theorem C33_isInList_debug_partial :
  forall (ops : list op) (fuel : nat), legal astate0 ops -> appends ops < fuel ->
  exists m outs A, run true fuel mem0 ops = Ok (m, outs) /\ explains false true astate0 ops outs A.
Proof.
  intros ops fuel Hl Hf.
  destruct (run_ok true fuel ops astate0 mem0 (fun _ => 0) 0 (inv0 true) Hl) as (m & outs & E & Hx & _); [discriminate|exact Hf|].
  eauto.
Qed.
Print Assumptions C33_isInList_debug_partial.
(** Release builds, for histories that take nodes out only with removeFromParentList: exact. *)
Theorem C33_isInList_release_partial :
  forall (debug : bool) (ops : list op) (fuel : nat), legal astate0 ops -> appends ops < fuel ->
  Forall (fun o => match o with LRemove _ _ | LEraseIf _ _ _ | LDelete _ => False | _ => True end) ops ->
  exists m outs A, run debug fuel mem0 ops = Ok (m, outs) /\ explains false true astate0 ops outs A.
Proof. exact isInList_exact_unlink. Qed.
Print Assumptions C33_isInList_release_partial.
Example C33_nonvacuous :
  legal astate0 [LNew 0; LIsInList 3; LAppend 0 3; LIsInList 3; LUnlink 3; LIsInList 3] /\
  exists m, run false 5 mem0 [LNew 0; LIsInList 3; LAppend 0 3; LIsInList 3; LUnlink 3; LIsInList 3] =
    Ok (m, [RUnit; RBool false; RUnit; RBool true; RUnit; RBool false]).
Proof. split; [cbn [legal pre]; dl|]. eexists. vm_compute. reflexivity. Qed.

(** ** C34 *)
Theorem C34_erase_while_iterating :
  forall (debug : bool) (ops : list op) (fuel : nat) (dir : bool) (pred : nat -> bool) (l : nat) (s : list nat),
  legal astate0 ops -> appends ops < fuel -> after astate0 ops l = Some s ->
  exists m outs, run debug fuel mem0 (ops ++ [LEraseIf dir pred l; LIterate true l]) =
    Ok (m, outs ++ [RNodes (if dir then s else rev s); RNodes (filter (fun x => negb (pred x)) s)]).
Proof. exact erase_if_ok. Qed.
Print Assumptions C34_erase_while_iterating.
Theorem C34_destroy_unlinks :
  forall (ops : list op) (fuel : nat) (l l' : nat) (s s' : list nat),
  legal astate0 ops -> appends ops + length s < fuel -> l <> l' ->
  after astate0 ops l = Some s -> after astate0 ops l' = Some s' ->
  exists m outs, run true fuel mem0 (ops ++ LDelete l :: map LIsInList s ++ map (LAppend l') s ++ [LIterate true l']) =
    Ok (m, outs ++ RUnit :: map (fun _ => RBool false) s ++ map (fun _ => RUnit) s ++ [RNodes (s' ++ s)]).
Proof. exact destroy_unlinks. Qed.
Print Assumptions C34_destroy_unlinks.
Example C34_nonvacuous :
  let ops := [LNew 0; LNew 1; LAppend 0 5; LAppend 0 6; LAppend 1 4] in
  legal astate0 ops /\ after astate0 ops 0 = Some [5; 6] /\ after astate0 ops 1 = Some [4] /\
  exists m outs, run true 9 mem0 (ops ++ LDelete 0 :: map LIsInList [5; 6] ++ map (LAppend 1) [5; 6] ++ [LIterate true 1]) =
    Ok (m, outs ++ [RUnit; RBool false; RBool false; RUnit; RUnit; RNodes [4; 5; 6]]).
Proof.
  cbn zeta. split; [cbn [legal pre]; dl|]. split; [reflexivity|]. split; [reflexivity|].
  eexists _, [_; _; _; _; _]. vm_compute. reflexivity.
Qed.
