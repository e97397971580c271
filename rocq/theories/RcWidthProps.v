(** Property C128 (amtl/am-refcounting.h:122-136, 169-184): the reference count is an unsigned integer of finite width. *)
From Verif Require Import Base RefcountModel RefcountSpec RefcountProofs RefcountState RefcountStep RefcountProps RcWidthModel RcWidthSpec RcWidthProofs.

(** C128: if at no time more than 2^width - 1 handles refer to one object, the machine's count is exact: the history runs as it
    does with an unbounded count, does not fault, and the books balance at the end ... *)
Theorem C128_count_does_not_wrap : forall debug width n ops, legal debug (init n) ops ->
  throughout debug n ops (fun s => forall o, handles s o < 2 ^ width) ->
  exists s, runW debug width (init n) (map Op ops) = Ok s /\ run debug (init n) ops = Ok s /\ balanced s.
Proof.
  intros debug width n ops L T. destruct (run_sim debug width ops (init n) (sinv0 n) L T) as (s & E & I & EW).
  exists s. repeat (split; [assumption|]). now apply sinv_balanced.
Qed.
Print Assumptions C128_count_does_not_wrap.
(** ... which memory guarantees: every handle is a pointer at a place of its own, so it is enough that there are fewer than
    2^width places that can hold one. *)
Theorem C128_fewer_places_than_counts : forall debug width n ops, legal debug (init n) ops ->
  throughout debug n ops (fun s => places s < 2 ^ width) ->
  exists s, runW debug width (init n) (map Op ops) = Ok s /\ run debug (init n) ops = Ok s /\ balanced s.
Proof.
  intros debug width n ops L T. apply C128_count_does_not_wrap; [exact L|]. intros b a s E R o.
  eapply Nat.le_lt_trans; [apply handles_places|exact (T b a s E R)].
Qed.
Print Assumptions C128_fewer_places_than_counts.
(** The bound is sharp for references that occupy no memory: after k calls of AddRef() on an object that one RefPtr holds the
    count is k + 1 modulo 2^width, and when 2^width divides k, dropping the RefPtr destroys the object with k references to it
    outstanding. *)
Theorem C128_unrecorded_references_wrap : forall debug width k, 0 < width ->
  exists s, runW debug width (init 1) (Op (CtorNew 0 0) :: repeat (RawAddRef (LVar 0)) k) = Ok s /\
    (exists ob, nth_error (objs (hp s)) 0 = Some ob /\ st ob = Alive /\ rc ob = (k + 1) mod 2 ^ width) /\ log (hp s) = [] /\
    (k mod 2 ^ width = 0 -> exists s', stepW debug width s (Destroy 0) = Ok s' /\ log (hp s') = [0]).
Proof.
  intros debug width k Hw. exists (one_obj ((k + 1) mod 2 ^ width)).
  assert (W1 : 1 < 2 ^ width) by (apply (Nat.pow_gt_1 2 width); lia).
  assert (E0 : stepW1 debug width (init 1) (Op (CtorNew 0 0)) = Ok (one_obj (1 mod 2 ^ width))) by reflexivity.
  split; [|split; [|split]].
  - cbn [runW]. rewrite E0. cbn [bind]. rewrite raw_addrefs. do 3 f_equal. lia.
  - eexists. repeat split.
  - reflexivity.
  - intros D. replace ((k + 1) mod 2 ^ width) with 1.
    + eexists. split; [|shelve]. unfold stepW, one_obj. unfold get_var. cbn [slot_get vars nth_error bind lift ReleaseW hp objs length].
      cbn [obj_ReleaseW get_alive slot_get objs nth_error bind st rc]. replace (assert_ debug (0 <? 1)) with (@Ok unit tt) by (destruct debug; reflexivity).
      cbn [bind]. replace ((1 + (2 ^ width - 1)) mod 2 ^ width) with 0; [|replace (1 + (2 ^ width - 1)) with (2 ^ width) by lia; symmetry; apply Nat.mod_same; lia].
      cbn [Nat.eqb]. reflexivity.
      Unshelve. reflexivity.
    + rewrite Nat.add_mod by lia. rewrite D, (Nat.mod_small 1) by lia. symmetry. apply Nat.mod_small. lia.
Qed.
Print Assumptions C128_unrecorded_references_wrap.
(** The chain of RefcountProps.v needs counts below 8 only: it runs the same with a three-bit count, in which eight unrecorded
    references wrap. *)
Example C128_case debug : legal debug (init 4) chain /\ throughout debug 4 chain (fun s => places s < 2 ^ 3) /\
  exists s, runW debug 3 (init 4) (map Op chain) = Ok s /\ log (hp s) = [0].
Proof.
  split; [apply chain_legal|]. split.
  - intros b a s E R. assert (Hb : b = firstn (length b) chain) by (rewrite E, firstn_app, Nat.sub_diag, firstn_all, app_nil_r; reflexivity).
    assert (Hl : length b <= 10) by (apply (f_equal (@length op)) in E; rewrite app_length in E; cbn [chain length] in E; lia).
    rewrite Hb in R. clear Hb E. revert R Hl. generalize (length b) as k. intros k R Hl.
    do 11 (destruct k as [|k]; [destruct debug; vm_compute in R; injection R as <-; vm_compute; repeat constructor|]). lia.
  - destruct debug; eexists; vm_compute; split; reflexivity.
Qed.
Example C128_wrap_case debug : exists s, runW debug 3 (init 1) (Op (CtorNew 0 0) :: repeat (RawAddRef (LVar 0)) 8 ++ [Op (Destroy 0)]) = Ok s /\ log (hp s) = [0].
Proof. destruct debug; eexists; vm_compute; split; reflexivity. Qed.
