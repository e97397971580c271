(** With few enough references the machine's counter and the unbounded one agree. *)
From Verif Require Import Base RefcountModel RefcountSpec RefcountProofs RefcountState RefcountStep RcWidthModel RcWidthSpec.

Section P.
Variable width : nat.
Let W := 2 ^ width.
Lemma W_pos : 0 < W.
Proof. unfold W. pose proof (Nat.pow_nonzero 2 width). lia. Qed.
Definition bnd (h : heap) : Prop := forall o ob, nth_error (objs h) o = Some ob -> st ob = Alive -> rc ob < W.

Lemma get_alive_inv h o ob : get_alive h o = Ok ob -> nth_error (objs h) o = Some ob /\ st ob = Alive.
Proof.
  unfold get_alive, slot_get. destruct (nth_error (objs h) o) as [b|] eqn:E; cbn [bind]; [|discriminate].
  destruct (st b) eqn:S; try discriminate. intros X. injection X as <-. auto.
Qed.
Lemma bnd_set h o ob : bnd h -> (st ob = Alive -> rc ob < W) -> bnd (set_obj h o ob).
Proof.
  intros B H p b. unfold set_obj. cbn [objs]. intros E S.
  rewrite nth_error_upd in E. destruct ((o =? p) && (o <? length (objs h))); [injection E as <-; auto|eauto].
Qed.
Lemma bnd_finish h o h' : bnd h -> finish h o = Ok h' -> bnd h'.
Proof.
  unfold finish. intros B. destruct (slot_get (objs h) o) as [ob| |]; cbn [bind]; try discriminate.
  destruct (st ob); try discriminate. intros X. injection X as <-. intros p b E S.
  apply (bnd_set h o (Obj 0 Dead []) B (fun X => ltac:(discriminate)) p b E S).
Qed.
Lemma dec_mod n : 0 < n -> n < W -> (n + (W - 1)) mod W = n - 1.
Proof.
  intros A B. replace (n + (W - 1)) with ((n - 1) + 1 * W) by lia. rewrite Nat.mod_add by lia. apply Nat.mod_small. lia.
Qed.

(** One release. *)
Lemma rel_sim d : forall fuel h o h', obj_Release true fuel h o = Ok h' -> bnd h -> obj_ReleaseW d width fuel h o = Ok h' /\ bnd h'.
Proof.
  induction fuel as [|f IH]; intros h o h' E B; [discriminate|]. cbn [obj_Release obj_ReleaseW] in *.
  destruct (get_alive h o) as [ob| |] eqn:G; cbn [bind] in *; try discriminate.
  destruct (get_alive_inv _ _ _ G) as [Hn Ha]. pose proof (B _ _ Hn Ha) as Hb.
  destruct (0 <? rc ob) eqn:P; [|discriminate]. apply Nat.ltb_lt in P.
  assert (A : assert_ d true = Ok tt) by (destruct d; reflexivity). rewrite A. change (assert_ true true) with (@Ok unit tt) in E. cbn [bind] in *.
  fold W. rewrite dec_mod by assumption.
  assert (RL : forall ps h h', release_list (obj_Release true f) h ps = Ok h' -> bnd h ->
                 release_list (obj_ReleaseW d width f) h ps = Ok h' /\ bnd h').
  { induction ps as [|[q|] ps IHp]; intros h0 h1 E0 B0; cbn [release_list] in *.
    - injection E0 as <-. auto.
    - destruct (obj_Release true f h0 q) as [h2| |] eqn:E2; cbn [bind] in *; try discriminate.
      destruct (IH _ _ _ E2 B0) as [-> B2]. cbn [bind]. eauto.
    - eauto. }
  destruct (rc ob) as [|[|n]]; [lia| |].
  - cbn [Nat.sub Nat.eqb].
    destruct (release_list _ _ _) as [h1| |] eqn:E1 in E; cbn [bind] in *; try discriminate.
    destruct (RL _ _ _ E1) as [-> B1]; [apply bnd_set; [exact B|discriminate]|]. cbn [bind]. split; [exact E|eapply bnd_finish; eauto].
  - cbn [Nat.sub Nat.eqb]. injection E as <-. split; [reflexivity|]. apply bnd_set; [exact B|]. cbn [rc]. lia.
Qed.
Lemma lift_rel d s p s' : lift s (Release true (hp s) p) = Ok s' -> bnd (hp s) -> lift s (ReleaseW d width (hp s) p) = Ok s'.
Proof.
  destruct p as [o|]; cbn [Release ReleaseW]; [|auto]. unfold lift.
  destruct (obj_Release true _ (hp s) o) as [h| |] eqn:E; cbn [bind]; try discriminate. intros X B.
  destruct (rel_sim d _ _ _ _ E B) as [-> _]. exact X.
Qed.
Lemma lift_add s p s' : lift s (AddRef (hp s) p) = Ok s' -> bnd (hp s') -> lift s (AddRefW width (hp s) p) = Ok s'.
Proof.
  destruct p as [o|]; cbn [AddRef AddRefW]; [|auto]. unfold lift, obj_AddRef, obj_AddRefW.
  destruct (get_alive (hp s) o) as [ob| |] eqn:G; cbn [bind]; try discriminate. intros X B. injection X as <-. cbn [hp] in B.
  destruct (get_alive_inv _ _ _ G) as [Hn _]. fold W.
  assert (L : S (rc ob) < W).
  { apply (B o (Obj (S (rc ob)) Alive (flds ob))); [|reflexivity]. unfold set_obj. cbn [objs]. apply nth_error_upd_eq. apply nth_error_Some. congruence. }
  rewrite Nat.mod_small by lia. rewrite Nat.add_1_r. reflexivity.
Qed.

Ltac one := match goal with
  | H : (do _ <- ?e; _) = Ok _ |- _ =>
      let E := fresh "E" in let x := fresh "x" in destruct e as [x| |] eqn:E; cbn [bind] in H; [cbn [bind]|discriminate|discriminate]
  end.
Ltac fin := match goal with H : lift _ (AddRef _ _) = Ok _ |- _ => solve [eapply lift_add; eassumption] | _ => eassumption end.
Ltac rel d := match goal with H : lift _ (Release true _ _) = Ok _ |- _ => apply (lift_rel d) in H; [rewrite H; cbn [bind]|] end.
(** One operation. *)
Lemma step_sim d s o s' : step true s o = Ok s' -> bnd (hp s) -> bnd (hp s') -> stepW d width s o = Ok s'.
Proof.
  intros H B B'.
  assert (BA : forall k, bnd (hp (fst (alloc s k)))).
  { intros k p b. cbn [alloc fst hp objs]. destruct (Nat.lt_ge_cases p (length (objs (hp s)))) as [L|L].
    - rewrite nth_error_app1 by exact L. apply B.
    - rewrite nth_error_app2 by exact L. destruct (p - length (objs (hp s))) as [|i]; cbn [nth_error]; [|destruct i; discriminate].
      intros X _. injection X as <-. cbn [rc]. exact W_pos. }
  destruct o; cbn [step stepW] in *; try exact H.
  - specialize (BA k). destruct (alloc s k) as [s1 m]. cbn [fst] in BA. repeat one. fin.
  - repeat one. fin.
  - repeat one. fin.
  - repeat one. rel d; [exact H|exact B].
  - specialize (BA k). destruct (alloc s k) as [s1 m]. cbn [fst] in BA. repeat one. rel d; [|exact BA].
    repeat match goal with E : ?e = Ok _ |- context [bind ?e] => rewrite E; cbn [bind] end. fin.
  - repeat one. rel d; [|exact B].
    repeat match goal with E : ?e = Ok _ |- context [bind ?e] => rewrite E; cbn [bind] end. fin.
  - repeat one. rel d; [|exact B].
    repeat match goal with E : ?e = Ok _ |- context [bind ?e] => rewrite E; cbn [bind] end. fin.
  - repeat one. rel d; [|exact B].
    repeat match goal with E : ?e = Ok _ |- context [bind ?e] => rewrite E; cbn [bind] end. exact H.
  - repeat one. rel d; [|exact B].
    repeat match goal with E : ?e = Ok _ |- context [bind ?e] => rewrite E; cbn [bind] end. exact H.
  - repeat one. fin.
  - repeat one. destruct x; try discriminate; repeat one; (rel d; [exact H|exact B]).
Qed.
End P.

(** The unbounded model, with and without the assertion. *)
Lemma rel_debug d : forall fuel h o h', obj_Release true fuel h o = Ok h' -> obj_Release d fuel h o = Ok h'.
Proof.
  induction fuel as [|f IH]; intros h o h' E; [discriminate|]. cbn [obj_Release] in *.
  destruct (get_alive h o) as [ob| |]; cbn [bind] in *; try discriminate.
  destruct (0 <? rc ob); [|discriminate]. assert (A : assert_ d true = Ok tt) by (destruct d; reflexivity). rewrite A. change (assert_ true true) with (@Ok unit tt) in E. cbn [bind] in *.
  assert (RL : forall ps h h', release_list (obj_Release true f) h ps = Ok h' -> release_list (obj_Release d f) h ps = Ok h').
  { induction ps as [|[q|] ps IHp]; intros h0 h1 E0; cbn [release_list] in *; eauto.
    destruct (obj_Release true f h0 q) as [h2| |] eqn:E2; cbn [bind] in *; try discriminate. rewrite (IH _ _ _ E2). cbn [bind]. eauto. }
  destruct (rc ob) as [|[|n]]; auto.
  destruct (release_list _ _ _) as [h1| |] eqn:E1 in E; cbn [bind] in *; try discriminate. rewrite (RL _ _ _ E1). exact E.
Qed.
Lemma lift_debug d s p s' : lift s (Release true (hp s) p) = Ok s' -> lift s (Release d (hp s) p) = Ok s'.
Proof.
  destruct p as [o|]; cbn [Release]; [|auto]. unfold lift.
  destruct (obj_Release true _ (hp s) o) as [h| |] eqn:E; cbn [bind]; try discriminate. rewrite (rel_debug d _ _ _ _ E). auto.
Qed.
Ltac one := match goal with
  | H : (do _ <- ?e; _) = Ok _ |- _ =>
      let E := fresh "E" in let x := fresh "x" in destruct e as [x| |] eqn:E; cbn [bind] in H; [cbn [bind]|discriminate|discriminate]
  end.
Lemma step_debug d s o s' : step true s o = Ok s' -> step d s o = Ok s'.
Proof.
  intros H. destruct o; cbn [step] in *; try exact H;
    try (destruct (alloc s k) as [s1 m]); repeat one; try (destruct x; try discriminate; repeat one);
    (match goal with X : lift _ (Release true _ _) = Ok _ |- _ => apply (lift_debug d) in X; rewrite X; cbn [bind] end);
    repeat match goal with E : ?e = Ok _ |- context [bind ?e] => rewrite E; cbn [bind] end; exact H.
Qed.

(** Histories. *)
Lemma sinv_bnd width s : sinv s None -> (forall o, handles s o < 2 ^ width) -> bnd width (hp s).
Proof. intros I H o ob E A. rewrite (i_rc _ _ _ _ I _ _ E A). apply H. Qed.
Lemma run_sim d width : forall ops s, sinv s None -> legal d s ops ->
  (forall before after s1, ops = before ++ after -> run d s before = Ok s1 -> forall o, handles s1 o < 2 ^ width) ->
  exists s', run d s ops = Ok s' /\ sinv s' None /\ runW d width s (map Op ops) = Ok s'.
Proof.
  induction ops as [|o ops IH]; intros s I L H; cbn [run map runW].
  - eauto.
  - inversion L as [|? ? ? Hp Hr]; subst. destruct (step_ok true s o I Hp) as (s1 & E & I1 & _).
    pose proof (step_debug d _ _ _ E) as Ed. rewrite Ed. cbn [bind stepW1].
    rewrite (step_sim width d s o s1 E).
    + cbn [bind]. apply IH; auto. intros before after s2 -> E2. apply (H (o :: before) after); [reflexivity|]. cbn [run]. rewrite Ed. exact E2.
    + apply sinv_bnd; [exact I|]. apply (H [] (o :: ops)); reflexivity.
    + apply sinv_bnd; [exact I1|]. apply (H [o] ops); [reflexivity|]. cbn [run]. rewrite Ed. reflexivity.
Qed.

(** Every handle is at a place. *)
Lemma sum_le {A} (f g : A -> nat) l : (forall x, f x <= g x) -> sum (map f l) <= sum (map g l).
Proof. intros H. induction l as [|a l IH]; cbn [map]; rewrite ?sum_cons; [auto|]. specialize (H a). lia. Qed.
Lemma is_ref_le o p : is_ref o p <= 1.
Proof. destruct p as [q|]; cbn [is_ref]; [destruct (o =? q)|]; lia. Qed.
Lemma handles_places s o : handles s o <= places s.
Proof.
  unfold handles, var_refs, member_refs, places. apply Nat.add_le_mono; apply sum_le.
  - intros [w|]; [apply is_ref_le|auto].
  - intros ob. destruct (st ob); auto. induction (flds ob) as [|p l IH]; cbn [map length]; rewrite ?sum_cons; [auto|]. pose proof (is_ref_le o p). lia.
Qed.

(** References that are recorded nowhere. *)
Definition one_obj (c : nat) : state := State (Heap [Obj c Alive []] []) [Some (VRef (Some 0))].
Lemma raw_addrefs d width : forall k c, runW d width (one_obj (c mod 2 ^ width)) (repeat (RawAddRef (LVar 0)) k) = Ok (one_obj ((c + k) mod 2 ^ width)).
Proof.
  pose proof (W_pos width) as Wp.
  assert (S1 : forall c, stepW1 d width (one_obj c) (RawAddRef (LVar 0)) = Ok (one_obj ((c + 1) mod 2 ^ width))) by reflexivity.
  induction k as [|k IH]; intros c; cbn [repeat runW].
  - rewrite Nat.add_0_r. reflexivity.
  - rewrite S1. cbn [bind]. rewrite Nat.add_mod_idemp_l by lia. rewrite IH. do 3 f_equal. lia.
Qed.
Lemma runW_app d width os2 : forall os1 s, runW d width s (os1 ++ os2) = do s1 <- runW d width s os1; runW d width s1 os2.
Proof. induction os1 as [|o os1 IH]; intros s; cbn [app runW bind]; [reflexivity|]. destruct (stepW1 d width s o); cbn [bind]; auto. Qed.
