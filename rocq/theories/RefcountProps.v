(** Properties C35-C38 (amtl/am-refcounting.h). *)
From Verif Require Import Base RefcountModel RefcountSpec RefcountProofs RefcountState RefcountStep RefcountAlias.

(** C35: along every legal history, in every build, nothing faults; every object is alive exactly while some handle
    refers to it, its count is the number of handles, each destroyed object is destroyed once ... *)
Theorem C35_refptr_lifetime : forall debug n ops, legal debug (init n) ops ->
  exists s, run debug (init n) ops = Ok s /\ balanced s.
Proof.
  intros debug n ops L. destruct (run_ok debug ops (init n) (sinv0 n) L) as (s & E & I). exists s. split; [exact E|]. now apply sinv_balanced.
Qed.
Print Assumptions C35_refptr_lifetime.
(** ... and each operation puts exactly the expected pointers in the handles it names and leaves all others alone. *)
Theorem C35_refptr_effect : forall debug n ops o, legal debug (init n) (ops ++ [o]) ->
  exists s s', run debug (init n) ops = Ok s /\ step debug s o = Ok s' /\ effect s o s'.
Proof.
  intros debug n ops o L.
  assert (L1 : exists s, run debug (init n) ops = Ok s /\ sinv s None /\ legal debug s [o]).
  { revert L. generalize (init n) (sinv0 n). induction ops as [|a ops IH]; intros s H L; cbn [app run] in *; [eauto|].
    inversion L as [|? ? ? Hp Hr]; subst. destruct (step_ok debug s a H Hp) as (s1 & E & I & _). rewrite E. cbn [bind]. apply IH; auto. }
  destruct L1 as (s & E & I & L1). inversion L1 as [|? ? ? Hp _]; subst. destruct (step_ok debug s o I Hp) as (s' & E' & _ & F). eauto.
Qed.
Print Assumptions C35_refptr_effect.

(** A list a -> b -> c, whose head is replaced: a dies, and with the last handle the rest dies in a cascade. *)
Definition chain : list op :=
  [CtorNew 0 1; AssignNew (LFld 0 0) 1; AssignNew (LFld 1 0) 0; CtorCopy 1 (LFld 0 0); AssignCopy (LVar 0) (LVar 1);
   Take 2 (LVar 1); CtorAlready 3 2; Destroy 2; Destroy 1; Destroy 0].
Ltac legal1 := constructor; [|let s := fresh "s" in let E := fresh "E" in intros s E; vm_compute in E; injection E as <-].
Ltac sec := first [ reflexivity | exact Logic.I | discriminate | split; sec | (left; reflexivity) | (right; reflexivity)
  | eapply reach_var with (v := 0); [discriminate|reflexivity]
  | eapply reach_var with (v := 1); [discriminate|reflexivity]
  | eapply reach_fld with (y := 0) (j := 0); [eapply reach_var with (v := 0); [discriminate|reflexivity]|discriminate|reflexivity] ].
Example chain_legal debug : legal debug (init 4) chain.
Proof. destruct debug; unfold chain; repeat (legal1; [sec|]); constructor. Qed.
Example chain_result debug : exists s, run debug (init 4) chain = Ok s /\ log (hp s) = [0] /\ handles s 1 = 1 /\ handles s 2 = 1.
Proof. destruct debug; eexists; vm_compute; repeat split. Qed.
Example chain_end debug : legal debug (init 4) (chain ++ [Destroy 3]) /\
  exists s, run debug (init 4) (chain ++ [Destroy 3]) = Ok s /\ log (hp s) = [1; 2; 0].
Proof. destruct debug; (split; [unfold chain; cbn [app]; repeat (legal1; [sec|]); constructor|eexists; vm_compute; split; reflexivity]). Qed.

(** C36 fails: assigning a RefPtr to itself (or assigning it its own raw pointer) when it holds the only reference is
    a use after free, in every reachable state. *)
Theorem C36_self_assignment_refuted : forall debug s l o, reachable debug s -> secure s l l ->
  content s l = Some (Some o) -> handles s o = 1 ->
  step debug s (AssignCopy l l) = Fault UseAfterFree /\ step debug s (AssignRaw l l) = Fault UseAfterFree.
Proof. intros debug s l o R. apply self_copy_last. exact (reach_sinv debug s R). Qed.
Print Assumptions C36_self_assignment_refuted.
(** What holds: null, or an object with another reference: nothing changes. *)
Theorem C36_self_assignment_partial : forall debug s l, reachable debug s -> is_refptr s l ->
  (forall o, content s l = Some (Some o) -> 2 <= handles s o) ->
  step debug s (AssignCopy l l) = Ok s /\ step debug s (AssignRaw l l) = Ok s.
Proof. intros debug s l R. apply self_copy_shared. exact (reach_sinv debug s R). Qed.
Print Assumptions C36_self_assignment_partial.
Example C36_case debug : exists s, reachable debug s /\ secure s (LVar 0) (LVar 0) /\ content s (LVar 0) = Some (Some 0) /\ handles s 0 = 1.
Proof.
  destruct debug; (eexists; split; [exists 1, [CtorNew 0 0]; split; [legal1; [reflexivity|]; constructor|reflexivity]|]; repeat split).
Qed.
Example C36_case2 debug : exists s, reachable debug s /\ is_refptr s (LVar 0) /\ content s (LVar 0) = Some (Some 0) /\ handles s 0 = 2.
Proof.
  destruct debug; (eexists; split; [exists 2, [CtorNew 0 0; CtorCopy 1 (LVar 0)]; split; [repeat (legal1; [sec|]); constructor|reflexivity]|]; repeat split).
Qed.

(** C37 fails: head = head->next (by copy or by move) when head holds the only reference to its object. *)
Theorem C37_assign_from_member_refuted : forall debug s l o j, reachable debug s -> secure s l l ->
  content s l = Some (Some o) -> handles s o = 1 ->
  step debug s (AssignCopy l (LFld o j)) = Fault UseAfterFree /\ step debug s (AssignMove l (LFld o j)) = Fault UseAfterFree.
Proof. intros debug s l o j R. apply next_last. exact (reach_sinv debug s R). Qed.
Print Assumptions C37_assign_from_member_refuted.
(** What holds: if the object has another reference, head ends up holding next. *)
Theorem C37_assign_from_member_partial : forall debug s v o j q, reachable debug s -> kind s v = Some 0 ->
  content s (LVar v) = Some (Some o) -> 2 <= handles s o -> content s (LFld o j) = Some q ->
  exists s', step debug s (AssignCopy (LVar v) (LFld o j)) = Ok s' /\ balanced s' /\ content s' (LVar v) = Some q /\
    alive s' o /\ content s' (LFld o j) = Some q.
Proof.
  intros debug s v o j q R Hk Hc Hh Hq. destruct (next_shared debug s v o j q (reach_sinv debug s R) Hk Hc Hh Hq) as (s' & E & I & X).
  exists s'. split; [exact E|]. split; [now apply sinv_balanced|exact X].
Qed.
Print Assumptions C37_assign_from_member_partial.
Example C37_case debug : exists s, reachable debug s /\ secure s (LVar 0) (LVar 0) /\ content s (LVar 0) = Some (Some 0) /\ handles s 0 = 1 /\
  content s (LFld 0 0) = Some (Some 1).
Proof.
  destruct debug; (eexists; split; [exists 1, [CtorNew 0 1; AssignNew (LFld 0 0) 0]; split; [repeat (legal1; [sec|]); constructor|reflexivity]|]; repeat split).
Qed.

(** C38: transfers change no reference count and destroy nothing; the source is left null (or, for AdoptRef of an owned raw
    pointer, given up); the destination holds what the source held. *)
Theorem C38_ownership_transfer : forall debug s o src, reachable debug s -> is_transfer o src -> pre s o ->
  exists s', step debug s o = Ok s' /\ counts s' = counts s /\
    (forall v, match o with CtorMove w _ | Take w _ | CtorAlready w _ | AlMove w _ | AlTake w _ | Adopt w _ => v = w | _ => False end ->
       content s' (LVar v) = content s src) /\
    content s' src = match o with Adopt _ _ => None | _ => Some None end.
Proof.
  intros debug s o src R T Hp. destruct (step_ok debug s o (reach_sinv debug s R) Hp) as (s' & E & I & F).
  exists s'. split; [exact E|]. split; [eapply transfer_counts; eauto|].
  assert (Hsrc : match src with LVar _ => True | LFld y _ => created s y /\ alive s' y end).
  { assert (K : counts s' = counts s) by (eapply transfer_counts; eauto).
    assert (Hne : is_refptr s src \/ exists w, src = LVar w) by (destruct o; cbn [is_transfer pre] in *; try contradiction; subst; [left|right|left|right|right|right]; try tauto; eauto).
    destruct src as [|y j]; [auto|]. destruct Hne as [Hr|[w X]]; [|discriminate].
    cbn [is_refptr content] in Hr. destruct (nth_error (objs (hp s)) y) as [ob|] eqn:Ey; [|congruence].
    destruct (st ob) eqn:So; try congruence. split; [unfold created; apply nth_error_Some; congruence|].
    unfold counts in K. injection K as K _. apply (f_equal (fun l => nth_error l y)) in K. rewrite !nth_error_map, Ey in K. cbn in K.
    destruct (nth_error (objs (hp s')) y) as [b|] eqn:Eb; [|discriminate]. cbn in K. injection K as _ K. exists b. split; [exact Eb|congruence]. }
  assert (Hv : forall v, unused s v -> src <> LVar v).
  { intros v Hu ->. destruct o; cbn [is_transfer pre] in *; try contradiction; try (match goal with X : LVar _ = LVar _ |- _ => injection X as X end); subst; destruct Hp as [_ Hr];
      unfold unused in Hu; cbn [is_refptr] in Hr; unfold kind in Hr; rewrite Hu in Hr; discriminate. }
  destruct o; cbn [is_transfer pre] in *; try contradiction; subst; destruct Hp as [Hu Hr];
    (split; [intros v0 ->; rewrite (F (LVar _) Logic.I); cbn [writes written]; rewrite loc_eqb_ne by (now apply Hv); rewrite loc_eqb_refl
            |match goal with |- content _ ?x = _ => rewrite (F x Hsrc) end; cbn [writes written]; rewrite loc_eqb_refl; reflexivity]).
  all: try (destruct (refptr_content _ _ Hr) as [p ->]; reflexivity).
  all: try (destruct (kind1 _ _ Hr) as (p & _ & _ & ->); reflexivity).
  all: destruct (kind2 _ _ Hr) as (p & _ & _ & ->); reflexivity.
Qed.
Print Assumptions C38_ownership_transfer.
(** Move-assignment, and assignment from an AlreadyRefed, have on the counts exactly the effect of resetting the
    destination to null; the source ends null and (if distinct) the destination holds what the source held. *)
Theorem C38_move_assignment : forall debug s l m, reachable debug s -> pre s (AssignMove l m) ->
  exists s1 s2, step debug s (AssignMove l m) = Ok s1 /\ step debug s (AssignNull l) = Ok s2 /\ counts s1 = counts s2 /\
    effect s (AssignMove l m) s1.
Proof.
  intros debug s l m R Hp. pose proof (reach_sinv debug s R) as H. destruct (assign_move_counts debug s l m H Hp) as (s1 & s2 & E1 & E2 & C).
  exists s1, s2. repeat (split; [assumption|]). destruct (step_ok debug s _ H Hp) as (s' & E & _ & F). assert (s' = s1) as -> by congruence. exact F.
Qed.
Print Assumptions C38_move_assignment.
Theorem C38_assign_already_refed : forall debug s l w, reachable debug s -> pre s (AssignAlready l w) ->
  exists s1 s2, step debug s (AssignAlready l w) = Ok s1 /\ step debug s (AssignNull l) = Ok s2 /\ counts s1 = counts s2 /\
    effect s (AssignAlready l w) s1.
Proof.
  intros debug s l w R Hp. pose proof (reach_sinv debug s R) as H. destruct (assign_already_counts debug s l w H Hp) as (s1 & s2 & E1 & E2 & C).
  exists s1, s2. repeat (split; [assumption|]). destruct (step_ok debug s _ H Hp) as (s' & E & _ & F). assert (s' = s1) as -> by congruence. exact F.
Qed.
Print Assumptions C38_assign_already_refed.
Example C38_case debug : exists s, reachable debug s /\ pre s (Take 1 (LVar 0)) /\ pre s (CtorMove 1 (LFld 0 0)) /\
  pre s (AssignMove (LVar 0) (LVar 0)) /\ content s (LVar 0) = Some (Some 0).
Proof.
  destruct debug; (eexists; split; [exists 2, [CtorNew 0 1; AssignNew (LFld 0 0) 0]; split; [repeat (legal1; [sec|]); constructor|reflexivity]|]; repeat split; discriminate).
Qed.
