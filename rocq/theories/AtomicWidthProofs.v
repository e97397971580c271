(** Proofs for AtomicWidthProps.v. *)
From Verif Require Import Base AtomicRefModel AtomicRefSpec AtomicRefProofs AtomicRefStep AtomicRefExec AtomicRefProps
  AtomicRefLin AtomicWidthModel AtomicWidthSpec.
Local Open Scope N_scope.

Section W.
Variable vt : variant.
Variable debug : bool.
Variable width : nat.
Notation step := (step vt debug).
Notation run := (run vt debug).
Notation stepW := (stepW vt debug width).
Notation runW := (runW vt debug width).
Notation inv := (inv vt).

Lemma addref_same h a h' : addref vt debug h a = Ok h' ->
  (forall ob, h' a = Some ob -> (cnt ob < 2 ^ width)%nat) -> addrefW vt debug width h a = Ok h'.
Proof.
  unfold addref, addrefW. destruct (h a) as [ob|]; [|discriminate]. intros E Hb.
  assert (E' : h' = hset h a (Some (Tobj (ser ob) (S (cnt ob)) (dying ob)))).
  { destruct vt; [|destruct (assert_ debug (negb (dying ob))) as [[]| |]]; cbn [bind] in E; congruence. }
  subst h'. assert (Hs : (S (cnt ob) < 2 ^ width)%nat).
  { apply (Hb (Tobj (ser ob) (S (cnt ob)) (dying ob))). apply hset_eq. }
  rewrite (Nat.mod_small _ _ Hs). exact E.
Qed.

Lemma dec_small n : (0 < n < 2 ^ width)%nat -> ((n + (2 ^ width - 1)) mod 2 ^ width = pred n)%nat.
Proof.
  intros H. replace (n + (2 ^ width - 1))%nat with (pred n + 1 * 2 ^ width)%nat by lia.
  rewrite Nat.mod_add by lia. apply Nat.mod_small. lia.
Qed.

Definition small (s : state) : Prop := forall a, (handles s a < 2 ^ width)%nat.

Lemma cont_same s t p l s' o : inv s -> nth_error (threads s) t = Some (Thread p l) -> inv s' ->
  small s -> small s' -> cont vt debug s t p l = Ok (s', o) -> contW vt debug width s t p l = Ok (s', o).
Proof.
  intros I Ht I' Hs Hs' E.
  assert (Hcnt : forall a ob, hp s' a = Some ob -> (cnt ob < 2 ^ width)%nat).
  { intros a ob Ha. destruct (live_facts vt s' a ob I' Ha) as (_ & _ & _ & ->). apply Hs'. }
  destruct p; try exact E; cbn [cont contW] in *.
  1, 2: destruct (addref vt debug (hp s) a) as [h| |] eqn:Q; try discriminate; cbn [bind] in E;
    rewrite (addref_same (hp s) a h Q); [exact E|];
    destruct (setpc (sethp s h) t Idle (a :: l)) as [s1| |] eqn:Q1; try discriminate; cbn [bind] in E; injection E as <- <-;
    apply setpc_inv in Q1; subst s1; intros ob Hob; exact (Hcnt a ob Hob).
  - pose proof (i_thr vt s I t _ Ht) as T. cbn in T.
    pose proof (handles_thr s t _ a Ht) as Lh. unfold tref in Lh. cbn [tpc held pc_refs] in Lh. rewrite refto_self in Lh by auto.
    destruct (hp s a) as [ob|] eqn:Ha; [|discriminate].
    destruct (live_facts vt s a ob I Ha) as (_ & _ & _ & Ec). pose proof (Hs a).
    rewrite dec_small by lia. exact E.
  - destruct (addref vt debug (hp s) (target o0 v)) as [h| |] eqn:Q; try discriminate; cbn [bind] in E.
    rewrite (addref_same (hp s) _ h Q); [exact E|].
    destruct (setpc (sethp s h) t (UnA c o0 v) l) as [s1| |] eqn:Q1; try discriminate; cbn [bind] in E; injection E as <- <-.
    apply setpc_inv in Q1; subst s1. intros ob Hob. exact (Hcnt _ ob Hob).
  - destruct (addref vt debug (hp s) p) as [h| |] eqn:Q; try discriminate; cbn [bind] in E.
    rewrite (addref_same (hp s) p h Q); [exact E|].
    destruct (setcell (sethp s h) c (CLive p)) as [s0| |] eqn:Q0; try discriminate; cbn [bind] in E.
    destruct (setpc s0 t Idle l) as [s1| |] eqn:Q1; try discriminate; cbn [bind] in E; injection E as <- <-.
    apply setpc_inv in Q1; apply setcell_inv in Q0; subst s1 s0. intros ob Hob. exact (Hcnt _ ob Hob).
Qed.

Lemma step_same s e s' o : inv s -> inv s' -> small s -> small s' -> step s e = Ok (s', o) -> stepW s e = Ok (s', o).
Proof.
  intros I I' Hs Hs' E. destruct e as [t a|t]; [exact E|]. cbn [AtomicRefModel.step AtomicWidthModel.stepW] in *.
  unfold slot_get in *. destruct (nth_error (threads s) t) as [[p l]|] eqn:Ht; [|discriminate]. cbn [bind tpc held] in *.
  eapply cont_same; eauto.
Qed.

Definition sim (s s' : state) : Prop := cells s' = cells s /\ threads s' = threads s.
Lemma sim_handles s s' : sim s s' -> forall a, handles s' a = handles s a.
Proof. intros [Hc Ht] a. unfold handles. now rewrite Hc, Ht. Qed.
Lemma addref_any h a h' : addref vt debug h a = Ok h' -> exists h2, addrefW vt debug width h a = Ok h2.
Proof.
  unfold addref, addrefW. destruct (h a) as [ob|]; [|discriminate].
  destruct vt; cbn [bind]; [eauto|]. destruct (assert_ debug (negb (dying ob))) as [[]| |]; cbn [bind]; [eauto|discriminate..].
Qed.
Lemma setpc_any s h0 t p l s' h : setpc (sethp s h0) t p l = Ok s' -> exists s2, setpc (sethp s h) t p l = Ok s2 /\ sim s' s2.
Proof.
  unfold setpc. cbn [sethp threads cells hp]. destruct (slot_set (threads s) t (Thread p l)) as [ts| |]; try discriminate.
  cbn [bind]. intros E. injection E as <-. eexists. split; [reflexivity|]. split; reflexivity.
Qed.

(** A step that faults in neither machine leaves the same threads and cells. *)
Lemma cont_sim s t p l s' o : inv s -> small s -> nth_error (threads s) t = Some (Thread p l) ->
  cont vt debug s t p l = Ok (s', o) -> exists s2, contW vt debug width s t p l = Ok (s2, o) /\ sim s' s2.
Proof.
  intros I Hs Ht E.
  destruct p; try (eexists; split; [exact E|split; reflexivity]); cbn [cont contW] in *.
  1, 2: destruct (addref vt debug (hp s) a) as [h| |] eqn:Q; try discriminate; cbn [bind] in E;
    destruct (addref_any _ _ _ Q) as [h2 ->]; cbn [bind];
    destruct (setpc (sethp s h) t Idle (a :: l)) as [s1| |] eqn:Q1; try discriminate; cbn [bind] in E; injection E as <- <-;
    destruct (setpc_any _ _ _ _ _ _ h2 Q1) as (s2 & E2 & S2); rewrite E2; eexists; split; [reflexivity|exact S2].
  - pose proof (i_thr vt s I t _ Ht) as T. cbn in T.
    pose proof (handles_thr s t _ a Ht) as Lh. unfold tref in Lh. cbn [tpc held pc_refs] in Lh. rewrite refto_self in Lh by auto.
    destruct (hp s a) as [ob|] eqn:Ha; [|discriminate].
    destruct (live_facts vt s a ob I Ha) as (_ & _ & _ & Ec). pose proof (Hs a).
    rewrite dec_small by lia. eexists; split; [exact E|split; reflexivity].
  - destruct (addref vt debug (hp s) (target o0 v)) as [h| |] eqn:Q; try discriminate; cbn [bind] in E.
    destruct (addref_any _ _ _ Q) as [h2 ->]; cbn [bind].
    destruct (setpc (sethp s h) t (UnA c o0 v) l) as [s1| |] eqn:Q1; try discriminate; cbn [bind] in E; injection E as <- <-.
    destruct (setpc_any _ _ _ _ _ _ h2 Q1) as (s2 & E2 & S2). cbn [bind]. rewrite E2. cbn [bind]. eexists; split; [reflexivity|exact S2].
  - destruct (addref vt debug (hp s) p) as [h| |] eqn:Q; try discriminate; cbn [bind] in E.
    destruct (addref_any _ _ _ Q) as [h2 ->]; cbn [bind].
    unfold setcell in *. cbn [sethp cells hp threads fresh deleted] in *.
    destruct (slot_set (cells s) c (CLive p)) as [cs| |]; try discriminate. cbn [bind] in *.
    destruct (setpc _ t Idle l) as [s1| |] eqn:Q1 in E; try discriminate; cbn [bind] in E; injection E as <- <-.
    match type of Q1 with setpc ?x _ _ _ = _ => change x with (sethp (State (hp s) cs (threads s) (fresh s) (deleted s)) h) in Q1 end.
    destruct (setpc_any _ _ _ _ _ _ h2 Q1) as (s2 & E2 & S2). unfold sethp in E2. cbn [cells hp threads fresh deleted] in E2.
    rewrite E2. cbn [bind]. eexists; split; [reflexivity|exact S2].
Qed.
Lemma step_sim s e s' o : inv s -> small s -> step s e = Ok (s', o) -> exists s2, stepW s e = Ok (s2, o) /\ sim s' s2.
Proof.
  intros I Hs E. destruct e as [t a|t]; [eexists; split; [exact E|split; reflexivity]|].
  cbn [AtomicRefModel.step AtomicWidthModel.stepW] in *. unfold slot_get in *.
  destruct (nth_error (threads s) t) as [[p l]|] eqn:Ht; [|discriminate]. cbn [bind tpc held] in *.
  now apply cont_sim.
Qed.

Lemma run_same : forall es s, inv s -> legalW vt debug width s es -> throughout vt debug width s es small ->
  exists s' tr, run s es = Ok (s', tr) /\ inv s' /\ runW s es = Ok (s', tr).
Proof.
  induction es as [|e es IH]; intros s I L T.
  - exists s, []. repeat split; auto; apply I.
  - inversion L as [|? ? ? A L']; subst. destruct (step_ok vt debug s e I A) as (s1 & o1 & E & I1).
    assert (Hs : small s) by (apply (T [] (e :: es) s []); reflexivity).
    assert (Hs1 : small s1).
    { destruct (step_sim s e s1 o1 I Hs E) as (s2 & EW & S2). intros a. rewrite <- (sim_handles s1 s2 S2 a).
      apply (T [e] es s2 (o1 ++ [])); [reflexivity|]. cbn [AtomicWidthModel.runW]. rewrite EW. reflexivity. }
    pose proof (step_same s e s1 o1 I I1 Hs Hs1 E) as EW.
    destruct (IH s1 I1 (L' _ _ EW)) as (s2 & tr & E2 & I2 & EW2).
    { intros b a s0 tr0 -> R. apply (T (e :: b) a s0 (o1 ++ tr0)); [reflexivity|]. cbn [AtomicWidthModel.runW]. rewrite EW. cbn [bind].
      rewrite R. reflexivity. }
    exists s2, (o1 ++ tr). cbn [AtomicRefModel.run AtomicWidthModel.runW]. rewrite E, EW. cbn [bind].
    rewrite E2, EW2. auto.
Qed.

Lemma sum_le {A} (f g : A -> nat) l : (forall x, (f x <= g x)%nat) -> (sum (map f l) <= sum (map g l))%nat.
Proof. intros H. unfold sum. induction l as [|x l IH]; cbn; [lia|]. pose proof (H x). lia. Qed.
Lemma refto_le a b : (refto a b <= 1)%nat.
Proof. unfold refto. destruct ((a =? b) && negb (b =? 0))%bool; lia. Qed.
Lemma handles_places s a : (handles s a <= places s)%nat.
Proof.
  unfold handles, places. apply Nat.add_le_mono.
  - apply sum_le. intros [p l]. cbn [held tpc]. apply Nat.add_le_mono.
    + induction l as [|b l IH]; cbn; [lia|]. destruct (N.eq_dec b a); lia.
    + destruct p; cbn [pc_refs]; try apply refto_le; lia.
  - unfold sum. induction (cells s) as [|c cs IH]; cbn; [lia|]. assert (cell_refs a c <= 1)%nat; [|lia].
    destruct c; cbn; try apply refto_le; lia.
Qed.
End W.

(** ** The bound is sharp *)
(** One thread owns [l]; nothing but the object [x] at 8 exists. *)
Definition shape (s : state) (x : option tobj) (p : pc) (l : list N) (d : list nat) : Prop :=
  (forall b, hp s b = if b =? 8 then x else None) /\ cells s = [] /\ threads s = [Thread p l] /\ deleted s = d.

Section Sharp.
Variable debug : bool.
Variable width : nat.
Notation stepW := (stepW Plain debug width).
Notation runW := (runW Plain debug width).
Notation legalW := (legalW Plain debug width).

Lemma shape_set s x p l d y p' l' d' fr : shape s x p l d ->
  shape (State (hset (hp s) 8 y) (cells s) (upd (threads s) 0 (Thread p' l')) fr d') y p' l' d'.
Proof.
  intros (Hh & Hc & Ht & Hd). repeat split; cbn [hp cells threads deleted]; auto; [|now rewrite Ht].
  intros b. unfold hset. rewrite N.eqb_sym. destruct (b =? 8) eqn:E; [reflexivity|]. now rewrite Hh, E.
Qed.
Lemma shape_pc s x p l d p' l' fr : shape s x p l d ->
  shape (State (hp s) (cells s) (upd (threads s) 0 (Thread p' l')) fr (deleted s)) x p' l' d.
Proof. intros (Hh & Hc & Ht & Hd). repeat split; cbn [hp cells threads deleted]; auto. now rewrite Ht. Qed.
Lemma setpc_shape s x p l d p' l' : shape s x p l d ->
  setpc s 0 p' l' = Ok (State (hp s) (cells s) (upd (threads s) 0 (Thread p' l')) (fresh s) (deleted s)).
Proof. intros (_ & _ & Ht & _). unfold setpc, slot_set. rewrite Ht. reflexivity. Qed.
Lemma get_shape s x p l d : shape s x p l d -> slot_get (threads s) 0 = Ok (Thread p l).
Proof. intros (_ & _ & Ht & _). unfold slot_get. now rewrite Ht. Qed.

(** One step of the only thread. *)
Lemma go s x p l d e s' x' p' l' d' es : shape s x p l d -> allowed s e -> stepW s e = Ok (s', []) ->
  shape s' x' p' l' d' ->
  (exists s2, legalW s' es /\ runW s' es = Ok (s2, []) /\ shape s2 None Idle (repeat 8%N (2 ^ width)) [0%nat]) ->
  exists s2, legalW s (e :: es) /\ runW s (e :: es) = Ok (s2, []) /\ shape s2 None Idle (repeat 8%N (2 ^ width)) [0%nat].
Proof.
  intros _ A E _ (s2 & L & R & S2). exists s2. split; [|split; [|exact S2]].
  - constructor; [exact A|]. intros s1 o1 E1. rewrite E in E1. now injection E1 as <- <-.
  - cbn [AtomicWidthModel.runW]. rewrite E. cbn [bind]. rewrite R. reflexivity.
Qed.
Lemma at8 s x p l d : shape s x p l d -> hp s 8 = x.
Proof. intros (Hh & _). exact (Hh 8). Qed.
Lemma allowed_cont s x p l d : shape s x p l d -> p <> Idle -> allowed s (ECont 0).
Proof. intros (_ & _ & Ht & _) Hp. exists (Thread p l). rewrite Ht. split; [reflexivity|exact Hp]. Qed.

Hypothesis Hw : (0 < width)%nat.

(** The release when the count has come round to 1. *)
Lemma release_wraps s l : shape s (Some (Tobj 0 1 false)) Idle (8 :: l) [] -> l = repeat 8%N (2 ^ width) ->
  exists s2, legalW s [EStart 0 (ARelease 8); ECont 0; ECont 0; ECont 0] /\
    runW s [EStart 0 (ARelease 8); ECont 0; ECont 0; ECont 0] = Ok (s2, []) /\ shape s2 None Idle (repeat 8%N (2 ^ width)) [0%nat].
Proof.
  intros S El. eapply go; [exact S| | |eapply (shape_pc s _ _ _ _ (RelSub 8 None) l); exact S|].
  - destruct S as (_ & _ & Ht & _). exists (Thread Idle (8 :: l)). rewrite Ht. repeat split; try reflexivity. cbn. auto.
  - cbn [AtomicWidthModel.stepW]. rewrite (get_shape _ _ _ _ _ S). cbn [bind held start]. rewrite (setpc_shape _ _ _ _ _ _ _ S). reflexivity.
  - match goal with |- context [legalW ?x _] => set (s1 := x) end.
    assert (S1 : shape s1 (Some (Tobj 0 1 false)) (RelSub 8 None) l []) by (eapply shape_pc; exact S). clearbody s1. clear s S.
    eapply go; [exact S1|eapply allowed_cont; [exact S1|discriminate]| |eapply (shape_set s1 _ _ _ _ (Some (Tobj 0 0 false)) (RelAssert 8 None) l []); exact S1|].
    + cbn [AtomicWidthModel.stepW]. rewrite (get_shape _ _ _ _ _ S1). cbn [bind held tpc contW]. rewrite (at8 _ _ _ _ _ S1). cbn [cnt Nat.eqb ser dying].
      replace ((1 + (2 ^ width - 1)) mod 2 ^ width)%nat with 0%nat.
      2: { assert (2 ^ width <> 0)%nat by (apply Nat.pow_nonzero; lia). replace (1 + (2 ^ width - 1))%nat with (2 ^ width)%nat by lia.
           now rewrite Nat.mod_same. }
      unfold sethp, setpc. cbn [threads hp cells fresh deleted]. destruct S1 as (_ & _ & Ht & Hd). rewrite Ht, Hd. reflexivity.
    + match goal with |- context [legalW ?x _] => set (s2 := x) end.
      assert (S2 : shape s2 (Some (Tobj 0 0 false)) (RelAssert 8 None) l []) by (eapply shape_set; exact S1). clearbody s2. clear s1 S1.
      eapply go; [exact S2|eapply allowed_cont; [exact S2|discriminate]| |eapply (shape_pc s2 _ _ _ _ (RelDel 8 None) l); exact S2|].
      * cbn [AtomicWidthModel.stepW]. rewrite (get_shape _ _ _ _ _ S2). cbn [bind held tpc contW cont]. rewrite (at8 _ _ _ _ _ S2). cbn [cnt Nat.eqb ser dying].
        replace (assert_ debug true) with (@Ok unit tt) by (destruct debug; reflexivity). cbn [bind].
        rewrite (setpc_shape _ _ _ _ _ _ _ S2). reflexivity.
      * match goal with |- context [legalW ?x _] => set (s3 := x) end.
        assert (S3 : shape s3 (Some (Tobj 0 0 false)) (RelDel 8 None) l []) by (eapply shape_pc; exact S2). clearbody s3. clear s2 S2.
        eapply go; [exact S3|eapply allowed_cont; [exact S3|discriminate]| |eapply (shape_set s3 _ _ _ _ None Idle l [0%nat]); exact S3|].
        -- cbn [AtomicWidthModel.stepW]. rewrite (get_shape _ _ _ _ _ S3). cbn [bind held tpc contW cont]. rewrite (at8 _ _ _ _ _ S3). cbn [ser].
           unfold setpc. cbn [threads hp cells fresh deleted]. destruct S3 as (_ & _ & Ht & Hd). rewrite Ht, Hd. reflexivity.
        -- eexists. split; [constructor|]. split; [reflexivity|]. rewrite <- El. eapply shape_set. exact S3.
Qed.

(** AddRef until 2^width + 1 references are held, then one Release. *)
Lemma adds : forall k s l, shape s (Some (Tobj 0 (length l mod 2 ^ width) false)) Idle l [] -> In 8 l ->
  repeat 8%N k ++ l = repeat 8%N (S (2 ^ width)) ->
  exists s2, legalW s (concat (repeat [EStart 0 (AAddRef 8); ECont 0] k) ++ [EStart 0 (ARelease 8); ECont 0; ECont 0; ECont 0]) /\
    runW s (concat (repeat [EStart 0 (AAddRef 8); ECont 0] k) ++ [EStart 0 (ARelease 8); ECont 0; ECont 0; ECont 0]) = Ok (s2, []) /\
    shape s2 None Idle (repeat 8%N (2 ^ width)) [0%nat].
Proof.
  assert (P0 : (2 ^ width <> 0)%nat) by (apply Nat.pow_nonzero; lia).
  induction k as [|k IH]; intros s l S Hin El.
  - cbn [repeat concat app] in *. apply (release_wraps s (repeat 8%N (2 ^ width))); [|reflexivity]. subst l.
    cbn [repeat length] in S. rewrite repeat_length in S.
    replace (Datatypes.S (2 ^ width) mod 2 ^ width)%nat with 1%nat in S; [exact S|].
    replace (Datatypes.S (2 ^ width)) with (1 + 1 * 2 ^ width)%nat by lia. rewrite Nat.mod_add by exact P0. symmetry. apply Nat.mod_small.
    assert (X : (2 ^ 1 <= 2 ^ width)%nat) by (apply Nat.pow_le_mono_r; lia). cbn in X. lia.
  - cbn [repeat concat app]. eapply go; [exact S| | |eapply (shape_pc s _ _ _ _ (Add 8) l); exact S|].
    + destruct S as (_ & _ & Ht & _). exists (Thread Idle l). rewrite Ht. repeat split; try reflexivity. exact Hin.
    + cbn [AtomicWidthModel.stepW]. rewrite (get_shape _ _ _ _ _ S). cbn [bind held start]. rewrite (setpc_shape _ _ _ _ _ _ _ S). reflexivity.
    + match goal with |- context [legalW ?x _] => set (s1 := x) end.
      assert (S1 : shape s1 (Some (Tobj 0 (length l mod 2 ^ width) false)) (Add 8) l []) by (eapply shape_pc; exact S). clearbody s1. clear s S.
      assert (Ec : (S (length l mod 2 ^ width) mod 2 ^ width = length (8%N :: l) mod 2 ^ width)%nat).
      { change (S (length l mod 2 ^ width)) with (1 + length l mod 2 ^ width)%nat. rewrite Nat.add_mod_idemp_r by exact P0. reflexivity. }
      eapply go; [exact S1|eapply allowed_cont; [exact S1|discriminate]| |
        eapply (shape_set s1 _ _ _ _ (Some (Tobj 0 (length (8%N :: l) mod 2 ^ width) false)) Idle (8 :: l) []); exact S1|].
      * cbn [AtomicWidthModel.stepW]. rewrite (get_shape _ _ _ _ _ S1). cbn [bind held tpc contW]. unfold addrefW. rewrite (at8 _ _ _ _ _ S1).
        cbn [cnt ser dying bind]. rewrite Ec. unfold sethp, setpc. cbn [threads hp cells fresh deleted].
        destruct S1 as (_ & _ & Ht & Hd). rewrite Ht, Hd. reflexivity.
      * apply (IH _ (8%N :: l)); [eapply shape_set; exact S1|now left|]. rewrite <- El. cbn [repeat app].
        assert (forall k, repeat 8%N k ++ 8%N :: l = 8%N :: repeat 8%N k ++ l) as ->; [|reflexivity].
        clear. induction k as [|k IH]; [reflexivity|]. cbn. now rewrite IH.
Qed.
End Sharp.
