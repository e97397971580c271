(** Property C122: iterators of InlineList survive changes elsewhere in the lists.  Statements only. *)
From Verif Require Import Base InlineListModel InlineListSpec InlineListProofs InlineIterModel InlineIterSpec InlineIterProofs.

(** ** C122 *)
Theorem C122_iterators_follow_their_nodes :
  forall (debug : bool) (cs : list cmd) (fuel : nat), clegal astate0 places0 cs -> cappends cs < fuel ->
  exists m I outs A P, crun debug fuel mem0 ivars0 cs = Ok (m, I, outs) /\
    cexplains astate0 places0 cs outs A P.
Proof.
  intros debug cs fuel Hl Hf.
  destruct (crun_ok debug fuel cs astate0 mem0 (fun _ => 0) places0 ivars0 0 (inv0 debug) irel0 Hl) as (m & I & rs & A & P & E & Hx);
    [discriminate|exact Hf|]. exists m, I, rs, A, P. auto.
Qed.
Print Assumptions C122_iterators_follow_their_nodes.

(** Two lists; a forward walk during which nodes are appended, other nodes are taken out before and behind the
    iterator, and the node of an iterator is moved to the other list, where its walk goes on; erase in both directions. *)
Definition ex_cmds : list cmd :=
  [COp (LNew 0); COp (LNew 1); COp (LAppend 0 10); COp (LAppend 0 11); COp (LAppend 0 12); COp (LAppend 1 20);
   CBegin 0 true 0; CEnd 9 true 0; CEq 0 9; CGet 0;
   COp (LRemove 0 11); COp (LAppend 0 13); CNext 0; CGet 0;              (* 11 is gone: 12 *)
   COp (LUnlink 10); CPost 0 1; CGet 0; CGet 1;                          (* 13, and the old 12 *)
   COp (LUnlink 12); COp (LAppend 1 12); COp (LAppend 1 21); CNext 1; CGet 1;   (* 12 moved to list 1: 21 *)
   COp (LAppend 0 14); CErase 0 0 0; CGet 0;                             (* 13 erased: 14 *)
   CBegin 2 false 1; CGet 2; CNext 2; CErase 2 3 1; CGet 3; CErase 3 3 1; CEnd 4 false 1; CEq 3 4;
   CNext 0; CEq 0 9].
(** Used by the example only: the place of n in a sequence without repetition. *)
Fixpoint splitat (n : nat) (s : list nat) : option (list nat * list nat) :=
  match s with
  | [] => None
  | x :: r => if n =? x then Some ([], r) else option_map (fun p => (x :: fst p, snd p)) (splitat n r)
  end.
Lemma splitat_ok n s1 s2 : existsb (Nat.eqb n) s2 = false -> forall s, s = s1 ++ n :: s2 ->
  existsb (Nat.eqb n) s1 = false -> splitat n s = Some (s1, s2).
Proof.
  intros H2 s ->. induction s1 as [|x s1 IH]; cbn [app splitat existsb].
  - now rewrite Nat.eqb_refl.
  - destruct (n =? x); [discriminate|]. cbn [orb]. intros H. now rewrite IH.
Qed.
Lemma splitat_nodup n s s1 s2 : s = s1 ++ n :: s2 -> length (filter (Nat.eqb n) s) <= 1 -> splitat n s = Some (s1, s2).
Proof.
  intros E L. apply splitat_ok; auto; apply Bool.not_true_iff_false; intros X; apply existsb_exists in X as (y & Hy & Ey);
    apply Nat.eqb_eq in Ey; subst; rewrite filter_app, app_length in L; cbn [filter] in L; rewrite Nat.eqb_refl in L;
    cbn [length] in L.
  - apply in_split in Hy as (a & b & ->). rewrite filter_app, app_length in L. cbn [filter] in L. rewrite Nat.eqb_refl in L. cbn [length] in L. lia.
  - apply in_split in Hy as (a & b & ->). rewrite filter_app, app_length in L. cbn [filter] in L. rewrite Nat.eqb_refl in L. cbn [length] in L. lia.
Qed.
Lemma splitat_list (a : option (list nat)) n s1 s2 : a = Some (s1 ++ n :: s2) ->
  match a with Some s => (length (filter (Nat.eqb n) s) <=? 1) = true /\ splitat n s = Some (s1, s2) | None => False end \/
  match a with Some s => (length (filter (Nat.eqb n) s) <=? 1) = false | None => False end.
Proof.
  intros ->. destruct (length _ <=? 1) eqn:L; [left|auto]. split; [reflexivity|]. apply Nat.leb_le in L. now apply splitat_nodup.
Qed.
Ltac one :=
  let l := fresh "l" in let s1 := fresh "s1" in let s2 := fresh "s2" in let E := fresh "E" in
  match goal with H : follows _ _ _ _ |- _ =>
    destruct H as (l & s1 & s2 & E & ->); destruct l as [|[|l]];
    (apply splitat_list in E as [E|E]; vm_compute in E; try discriminate; try contradiction;
     destruct E as [_ E]; try discriminate; injection E as <- <-)
  end.
Ltac find_list :=
  first [ exists 0; eexists; split; [vm_compute; reflexivity|vm_compute; tauto]
        | exists 1; eexists; split; [vm_compute; reflexivity|vm_compute; tauto] ].
Ltac cpre_tac :=
  cbn [cpre pre];
  first [ exact I | reflexivity | vm_compute; discriminate | vm_compute; reflexivity
        | split; [vm_compute; discriminate|
            let l := fresh "l" in let s := fresh "s" in let E := fresh "E" in let I := fresh "I" in
            intros (l & s & E & I); destruct l as [|[|l]]; vm_compute in E;
            first [discriminate | injection E as <-; vm_compute in I; intuition discriminate]]
        | eexists; split; [vm_compute; reflexivity|find_list]
        | eexists; split; [vm_compute; reflexivity|vm_compute; tauto]
        | find_list
        | eexists; split; [vm_compute; reflexivity|eexists; split; [vm_compute; reflexivity|vm_compute; tauto]]
        | eexists; vm_compute; reflexivity ].
Ltac norm :=
  repeat match goal with
  | |- context [pset ?P ?v ?x] => progress (let y := eval vm_compute in x in change (pset P v x) with (pset P v y))
  | |- context [set_list ?A ?l ?x] => progress (let y := eval vm_compute in x in change (set_list A l x) with (set_list A l y))
  end.
Ltac ce_tac :=
  let H := fresh "H" in intros ? ? ? H; inversion H; subst; clear H;
  repeat match goal with
  | H : shows _ _ _ _ _ |- _ => clear H
  | H : _ <-> _ |- _ => clear H
  | H : snd _ = AtNode _ |- _ => vm_compute in H; injection H as <-
  | H : _ ?l = Some _ |- _ => vm_compute in H; injection H as <-
  end; try one; norm.
Lemma clegal_cons A P c rest : cpre A P c -> (forall r A' P', ceffect A P c r A' P' -> clegal A' P' rest) -> clegal A P (c :: rest).
Proof. split; assumption. Qed.
Ltac clegal_tac := repeat (apply clegal_cons; [cpre_tac|ce_tac]); exact I.
Example C122_nonvacuous :
  clegal astate0 places0 ex_cmds /\
  forall debug, exists m I, crun debug 20 mem0 ivars0 ex_cmds = Ok (m, I,
    [OList RUnit; OList RUnit; OList RUnit; OList RUnit; OList RUnit; OList RUnit;
     ONone; ONone; OCmp false true; ONode 10;
     OList RUnit; OList RUnit; ONone; ONode 12;
     OList RUnit; ONone; ONode 13; ONode 12;
     OList RUnit; OList RUnit; OList RUnit; ONone; ONode 21;
     OList RUnit; ONone; ONode 14;
     ONone; ONode 21; ONone; ONone; ONode 20; ONone; ONone; OCmp true false;
     ONone; OCmp true false]).
Proof.
  split.
  - unfold ex_cmds. clegal_tac.
  - intros []; eexists _, _; vm_compute; reflexivity.
Qed.
