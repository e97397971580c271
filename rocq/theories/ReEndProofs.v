(** Programs whose destructors create only objects of lower rank come to an end: a potential of the objects that are alive. *)
From Verif Require Import Base ReenterModel ReenterSpec ReenterProofs ReEndSpec.

(** ** Computations that end with enough fuel *)
Definition ends {A} (g : nat -> outcome A) (P : A -> Prop) : Prop :=
  exists r f0, r <> Diverge /\ (forall f, f0 <= f -> g f = r) /\ (forall a, r = Ok a -> P a).
Lemma ends_bind {A B} (g : nat -> outcome A) (h : A -> nat -> outcome B) P Q :
  ends g P -> (forall a, P a -> ends (h a) Q) -> ends (fun f => bind (g f) (fun a => h a f)) Q.
Proof.
  intros (r & f0 & Hr & Hg & HP) H. destruct r as [a|e|]; [|exists (Fault e), f0|congruence].
  - destruct (H a (HP a eq_refl)) as (r & f1 & Hr' & Hh & HQ). exists r, (max f0 f1). split; [exact Hr'|]. split; [|exact HQ].
    intros f Hf. rewrite Hg by lia. cbn [bind]. apply Hh. lia.
  - split; [discriminate|]. split; [|discriminate]. intros f Hf. now rewrite Hg.
Qed.
Lemma ends_const {A} (r : outcome A) (P : A -> Prop) : r <> Diverge -> (forall a, r = Ok a -> P a) -> ends (fun _ => r) P.
Proof. intros H HP. exists r, 0. auto. Qed.
Lemma ends_ok {A} (a : A) (P : A -> Prop) : P a -> ends (fun _ => Ok a) P.
Proof. intros H. apply ends_const; [discriminate|congruence]. Qed.
Lemma ends_fault {A} e (P : A -> Prop) : ends (fun _ => @Fault A e) P.
Proof. apply ends_const; discriminate. Qed.
Lemma ends_shift {A} (g : nat -> outcome A) P : ends g P -> ends (fun f => match f with O => Diverge | S f => g f end) P.
Proof.
  intros (r & f0 & Hr & Hg & HP). exists r, (S f0). split; [exact Hr|]. split; [|exact HP]. intros [|f] Hf; [lia|]. apply Hg. lia.
Qed.
Lemma ends_weaken {A} (g : nat -> outcome A) (P Q : A -> Prop) : ends g P -> (forall a, P a -> Q a) -> ends g Q.
Proof. intros (r & f0 & Hr & Hg & HP) H. exists r, f0. auto. Qed.
Lemma ends_ext {A} (g h : nat -> outcome A) P : (forall f, g f = h f) -> ends g P -> ends h P.
Proof. intros E (r & f0 & Hr & Hg & HP). exists r, f0. split; [exact Hr|]. split; [|exact HP]. intros f Hf. rewrite <- E. auto. Qed.

Section E.
Variables (debug : bool) (wrap : nat) (chk : bool) (script : nat -> list cmd) (rank : nat -> nat).
Hypothesis below : creates_below rank script.

(** ** The weight of a class: the destructions that the destruction of one of its objects can cause *)
Definition tot (w : nat -> nat) (cs : list nat) : nat := sum (map w cs).
Fixpoint W (n c : nat) : nat := match n with O => 1 | S n => S (tot (W n) (flat_map news (script c))) end.
Definition wt (c : nat) : nat := W (rank c) c.
Lemma tot_app w a b : tot w (a ++ b) = tot w a + tot w b.
Proof. unfold tot, sum. induction a as [|x a IH]; cbn; [reflexivity|]. rewrite IH. lia. Qed.
Lemma tot_le w w' cs : (forall c, In c cs -> w c <= w' c) -> tot w cs <= tot w' cs.
Proof.
  unfold tot, sum. induction cs as [|c cs IH]; cbn; intros H; [lia|]. specialize (IH (fun c Hc => H c (or_intror Hc))).
  specialize (H c (or_introl eq_refl)). lia.
Qed.
Lemma W_pos n c : 1 <= W n c.
Proof. destruct n; cbn; lia. Qed.
Lemma W_mono : forall n n' c, n <= n' -> W n c <= W n' c.
Proof.
  induction n as [|n IH]; intros n' c H; [apply W_pos|]. destruct n' as [|n']; [lia|]. cbn [W].
  apply le_n_S, tot_le. intros c' _. apply IH. lia.
Qed.
Lemma script_weight c : tot wt (flat_map news (script c)) < wt c.
Proof.
  unfold wt at 2. destruct (rank c) as [|n] eqn:E.
  - enough (flat_map news (script c) = []) as ->; [cbn; lia|]. destruct (flat_map news (script c)) as [|x r] eqn:F; [reflexivity|]. exfalso.
    assert (In x (flat_map news (script c))) as X by (rewrite F; now left). apply in_flat_map in X. destruct X as (k & Hk & Hx).
    pose proof (below c k x Hk Hx). lia.
  - cbn [W]. apply le_n_S, tot_le. intros c' X. apply in_flat_map in X. destruct X as (k & Hk & Hx). pose proof (below c k c' Hk Hx) as L.
    unfold wt. apply W_mono. lia.
Qed.

(** ** The potential *)
Definition pot1 (ob : obj) : nat := match st ob with Alive => wt (cls ob) | _ => 0 end.
Definition pot (s : world) : nat := sum (map pot1 (objs s)).
Lemma pot_upd l o ob ob' : nth_error l o = Some ob -> sum (map pot1 (upd l o ob')) + pot1 ob = sum (map pot1 l) + pot1 ob'.
Proof.
  revert o. unfold sum. induction l as [|x l IH]; intros [|o] H; cbn in *; try discriminate.
  - injection H as ->. lia.
  - specialize (IH o H). lia.
Qed.
Lemma pot_set s o ob ob' : nth_error (objs s) o = Some ob -> pot (set_obj s o ob') + pot1 ob = pot s + pot1 ob'.
Proof. intros H. unfold pot, set_obj. cbn [objs]. now apply pot_upd. Qed.
Lemma write_pot s l q s' : write s l q = Ok s' -> pot s' = pot s.
Proof.
  destruct l as [v|o j]; cbn [write].
  - destruct (slot_set (globs s) v q); cbn [bind]; try discriminate. intros [= <-]. reflexivity.
  - destruct (slot_get (objs s) o) as [ob| |] eqn:Eo; cbn [bind]; try discriminate. apply slot_get_inv in Eo.
    destruct (st ob) eqn:S; try discriminate; (destruct (slot_set (mem ob) j q) as [m| |]; cbn [bind]; try discriminate; intros [= <-];
      pose proof (pot_set s o ob (Obj (rc ob) (st ob) (cls ob) m) Eo) as X; unfold pot1 in X; rewrite S in X; cbn [st cls] in X; lia).
Qed.
Lemma add_ref_pot s q s' : add_ref s q = Ok s' -> pot s' = pot s.
Proof.
  destruct q as [o|]; cbn [add_ref]; [|congruence].
  destruct (slot_get (objs s) o) as [ob| |] eqn:Eo; cbn [bind]; try discriminate. apply slot_get_inv in Eo.
  pose proof (pot_set s o ob (Obj (S (rc ob)) (st ob) (cls ob) (mem ob)) Eo) as X. unfold pot1 in X. cbn [st cls] in X.
  destruct (st ob); try discriminate; intros [= <-]; lia.
Qed.
Lemma copies_pot c : forall ms s s' qs, copies chk c s ms = Ok (s', qs) -> pot s' = pot s.
Proof.
  induction ms as [|m ms IH]; intros s s' qs; cbn [copies]; [intros [= <- <-]; reflexivity|].
  destruct (res c m) as [l| |]; cbn [bind]; try discriminate. destruct (touch chk c l) as [u| |]; cbn [bind]; try discriminate.
  destruct (read s l) as [q| |]; cbn [bind]; try discriminate. destruct (add_ref s q) as [s1| |] eqn:A; cbn [bind]; try discriminate.
  destruct (copies chk c s1 ms) as [[s2 qs']| |] eqn:C; cbn [bind]; try discriminate. intros [= <- <-].
  rewrite (IH _ _ _ C). eapply add_ref_pot, A.
Qed.
(** None of the steps without destructors diverges. *)
Lemma bind_nd {A B} (r : outcome A) (f : A -> outcome B) : r <> Diverge -> (forall a, f a <> Diverge) -> bind r f <> Diverge.
Proof. destruct r; cbn; auto; discriminate. Qed.
Lemma get_nd {A} (l : list A) i : slot_get l i <> Diverge.
Proof. unfold slot_get. destruct (nth_error l i); discriminate. Qed.
Lemma setn_nd {A} (l : list A) i x : slot_set l i x <> Diverge.
Proof. unfold slot_set. destruct (i <? length l); discriminate. Qed.
Lemma read_nd s l : read s l <> Diverge.
Proof. destruct l; cbn [read]; [apply get_nd|]. apply bind_nd; [apply get_nd|]. intros ob. destruct (st ob); try discriminate; apply get_nd. Qed.
Lemma write_nd s l q : write s l q <> Diverge.
Proof.
  destruct l; cbn [write]; (apply bind_nd; [first [apply get_nd|apply setn_nd]|]); [discriminate|].
  intros ob. destruct (st ob); try discriminate; (apply bind_nd; [apply setn_nd|discriminate]).
Qed.
Lemma add_ref_nd s q : add_ref s q <> Diverge.
Proof. destruct q; cbn [add_ref]; [|discriminate]. apply bind_nd; [apply get_nd|]. intros ob. destruct (st ob); discriminate. Qed.
Lemma res_nd c p : res c p <> Diverge.
Proof. destruct p; cbn; [discriminate|]. destruct (this c); discriminate. Qed.
Lemma touch_nd c l : touch chk c l <> Diverge.
Proof. unfold touch. destruct (_ && _); discriminate. Qed.
Lemma pinned_nd c q : pinned chk c q <> Diverge.
Proof. unfold pinned. destruct (_ && _); discriminate. Qed.
Lemma copies_nd c : forall ms s, copies chk c s ms <> Diverge.
Proof.
  induction ms as [|m ms IH]; intros s; cbn [copies]; [discriminate|].
  apply bind_nd; [apply res_nd|intros l]. apply bind_nd; [apply touch_nd|intros _]. apply bind_nd; [apply read_nd|intros q].
  apply bind_nd; [apply add_ref_nd|intros s1]. apply bind_nd; [apply IH|intros [s2 qs]]. discriminate.
Qed.
Lemma put_ends s l q N : pot s <= N -> ends (fun _ => put s l q) (fun s' => pot s' <= N).
Proof.
  intros H. apply ends_const.
  - unfold put. apply bind_nd; [apply write_nd|intros; apply add_ref_nd].
  - intros s' E. unfold put in E. destruct (write s l q) as [s1| |] eqn:Ew; cbn [bind] in E; try discriminate.
    rewrite (add_ref_pot _ _ _ E), (write_pot _ _ _ _ Ew). exact H.
Qed.

Local Notation exec := (exec debug wrap chk script).
Local Notation rel := (rel debug wrap chk script).

Section Rel.
Variable N : nat.
Hypothesis rel_N : forall s c o, pot s <= N -> ends (fun f => rel f c s o) (fun s' => pot s' <= pot s).
Lemma relp_ends c s q : pot s <= N -> ends (fun f => relp (rel f) c s q) (fun s' => pot s' <= pot s).
Proof. intros H. destruct q as [o|]; cbn [relp]; [now apply rel_N|]. apply ends_ok. lia. Qed.
Lemma old_ends c s l : pot s <= N -> ends (fun f => release_old chk (rel f) c s l) (fun s' => pot s' <= pot s).
Proof.
  intros H. unfold release_old. eapply ends_bind with (P := fun _ => True) (g := fun _ => touch chk c l) (h := fun _ f => _); [apply ends_const; [apply touch_nd|auto]|]. intros _ _.
  eapply ends_bind with (P := fun _ => True) (g := fun _ => read s l) (h := fun p f => relp (rel f) (assigning c l) s p); [apply ends_const; [apply read_nd|auto]|]. intros p _.
  now apply relp_ends.
Qed.
Ltac go T := match goal with |- ends (fun f => bind ?r (fun a => @?h f a)) _ =>
  apply (ends_bind (fun _ => r) (fun a f => h f a) (fun _ => True)); [apply ends_const; [apply T|auto]|cbv beta] end.
Lemma ca_ends c s l m : pot s <= N -> ends (fun f => copy_assign chk (rel f) c s l m) (fun s' => pot s' <= pot s).
Proof.
  intros H. unfold copy_assign. apply (ends_bind (fun f => release_old chk (rel f) c s l) (fun s1 _ => _) _ _ (old_ends c s l H)). intros s1 H1.
  go touch_nd. intros _ _. go read_nd. intros q _. now apply put_ends.
Qed.
Fixpoint csize (k : cmd) : nat := match k with Hold _ body => S (sum (map csize body)) | _ => 1 end.
Definition cw (ks : list cmd) : nat := tot wt (flat_map news ks).
Lemma exec_ends : forall n ks s c, sum (map csize ks) <= n -> pot s + cw ks <= N ->
  ends (fun f => exec f c s ks) (fun s' => pot s' <= pot s + cw ks).
Proof.
  induction n as [|n IH]; intros ks s c Hn HN.
  - destruct ks as [|k ks]; [|exfalso; cbn in Hn; destruct k; cbn in Hn; lia].
    apply ends_ext with (g := fun f => match f with O => Diverge | S f => Ok s end); [intros [|f]; reflexivity|]. apply (ends_shift (fun _ => Ok s)), ends_ok. cbn. lia.
  - destruct ks as [|k ks].
    { apply ends_ext with (g := fun f => match f with O => Diverge | S f => Ok s end); [intros [|f]; reflexivity|]. apply (ends_shift (fun _ => Ok s)), ends_ok. cbn. lia. }
    assert (CW : cw (k :: ks) = tot wt (news k) + cw ks) by (unfold cw; cbn [flat_map]; apply tot_app).
    assert (CS : sum (map csize (k :: ks)) = csize k + sum (map csize ks)) by reflexivity.
    rewrite CW, CS in *. assert (C1 : 1 <= csize k) by (destruct k; cbn; lia).
    apply ends_ext with (g := fun f => match f with O => Diverge | S f => bind (step chk (exec f) (rel f) c s k) (fun s => exec f c s ks) end); [intros [|f]; reflexivity|].
    apply (ends_shift (fun f => bind (step chk (exec f) (rel f) c s k) (fun s => exec f c s ks))).
    eapply (ends_bind (fun f => step chk (exec f) (rel f) c s k) (fun s f => exec f c s ks) (fun s' => pot s' <= pot s + tot wt (news k))).
    2:{ intros s1 H1. eapply ends_weaken; [apply IH; lia|]. cbv beta. intros s2 H2. lia. }
    clear CS. destruct k as [l|l k ms|l m|l m|l m|m body|v j m]; cbn [step news] in *.
    + go res_nd. intros l' _. apply (ends_bind (fun f => release_old chk (rel f) c s l') (fun s1 _ => put s1 l' None) _ _ (old_ends c s l' ltac:(lia))). intros s1 H1.
      apply put_ends. cbn. lia.
    + apply (ends_bind (fun _ => copies chk c s ms) (fun sq f => let (s, qs) := sq in _) (fun sq => pot (fst sq) = pot s)).
      { apply ends_const; [apply copies_nd|]. intros [s1 qs] E. cbn. eapply copies_pot, E. }
      intros [s1 qs] H1. cbn [fst] in H1. cbv zeta. set (s2 := World _ _ _).
      assert (P2 : pot s2 = pot s + wt k).
      { rewrite <- H1. unfold pot, s2. cbn [objs]. rewrite map_app. cbn [map]. unfold pot1 at 2. cbn [st cls]. clear.
        unfold sum. induction (map pot1 (objs s1)) as [|x r IH]; cbn [app fold_right]; lia. }
      assert (T1 : tot wt [k] = wt k) by (unfold tot, sum; cbn; lia). rewrite T1 in *.
      go res_nd. intros l' _. apply (ends_bind (fun f => release_old chk (rel f) c s2 l') (fun s3 _ => put s3 l' (Some (length (objs s1)))) _ _ (old_ends c s2 l' ltac:(lia))). intros s3 H3.
      apply put_ends. lia.
    + go res_nd. intros l' _. go res_nd. intros m' _. eapply ends_weaken; [apply ca_ends; lia|]. cbv beta. intros; lia.
    + go res_nd. intros m' _. go touch_nd. intros _ _. go read_nd. intros q _. go pinned_nd. intros _ _. go res_nd. intros l' _.
      apply (ends_bind (fun f => release_old chk (rel f) c s l') (fun s1 _ => put s1 l' q) _ _ (old_ends c s l' ltac:(lia))). intros s1 H1. apply put_ends. cbn. lia.
    + go res_nd. intros l' _. go res_nd. intros m' _.
      apply (ends_bind (fun f => release_old chk (rel f) c s l') (fun s1 _ => _) _ _ (old_ends c s l' ltac:(lia))). intros s1 H1.
      go touch_nd. intros _ _. go read_nd. intros q _. apply ends_const; [apply bind_nd; [apply write_nd|intros; apply write_nd]|].
      intros s3 E. destruct (write s1 l' q) as [s2| |] eqn:E2; cbn [bind] in E; try discriminate. rewrite (write_pot _ _ _ _ E), (write_pot _ _ _ _ E2). cbn. lia.
    + go res_nd. intros m' _. go touch_nd. intros _ _. go read_nd. intros q _.
      fold (cw body) in *. change (csize (Hold m body)) with (S (sum (map csize body))) in Hn.
      apply (ends_bind (fun _ => add_ref s q) (fun s1 f => bind (exec f (Ctx (this c) (busy c) (q :: pins c)) s1 body) (fun s2 => relp (rel f) c s2 q)) (fun s1 => pot s1 = pot s)).
      { apply ends_const; [apply add_ref_nd|]. intros s1 E. eapply add_ref_pot, E. }
      intros s1 H1. apply (ends_bind (fun f => exec f (Ctx (this c) (busy c) (q :: pins c)) s1 body) (fun s2 f => relp (rel f) c s2 q) _ _ (IH body s1 _ ltac:(lia) ltac:(lia))).
      intros s2 H2. eapply ends_weaken; [apply relp_ends; lia|]. cbv beta. intros; lia.
    + go res_nd. intros m' _. go touch_nd. intros _ _. go (read_nd s (LG v)). intros [o|] _; [|apply ends_ok; lia].
      go pinned_nd. intros _ _. eapply ends_weaken; [apply ca_ends; lia|]. cbv beta. intros; lia.
Qed.
Lemma drop_ends c : forall qs s, pot s <= N -> ends (fun f => drop_members (rel f) c s qs) (fun s' => pot s' <= pot s).
Proof.
  induction qs as [|q qs IH]; intros s H; cbn [drop_members]; [apply ends_ok; lia|].
  apply (ends_bind (fun f => relp (rel f) c s q) (fun s1 f => drop_members (rel f) c s1 qs) _ _ (relp_ends c s q H)). intros s1 H1.
  eapply ends_weaken; [apply IH; lia|]. cbv beta. intros; lia.
Qed.
End Rel.

Lemma rel_ends : forall N s c o, pot s <= N -> ends (fun f => rel f c s o) (fun s' => pot s' <= pot s).
Proof.
  intros N. induction N as [N IHN] using lt_wf_ind. intros s c o HN.
  apply ends_ext with (g := fun f => match f with O => Diverge | S f => release debug wrap script (exec f) (rel f) c s o end); [intros [|f]; reflexivity|].
  apply (ends_shift (fun f => release debug wrap script (exec f) (rel f) c s o)). unfold release.
  destruct (slot_get (objs s) o) as [ob|e|] eqn:Eo; cbn [bind]; [|apply ends_fault|exfalso; exact (get_nd _ _ Eo)]. apply slot_get_inv in Eo.
  assert (Hlt := nth_lt _ _ _ Eo).
  assert (G : forall P, (st ob <> Dead -> ends (fun f =>
      bind (assert_ debug (0 <? rc ob)) (fun _ => let n := match rc ob with O => wrap | S n => n end in
        let s := set_obj s o (Obj n (st ob) (cls ob) (mem ob)) in if n =? 0 then destroy script (exec f) (rel f) c s o else Ok s)) P) ->
    ends (fun f => match st ob with Dead => Fault UseAfterFree | _ => bind (assert_ debug (0 <? rc ob)) (fun _ => let n := match rc ob with O => wrap | S n => n end in
        let s := set_obj s o (Obj n (st ob) (cls ob) (mem ob)) in if n =? 0 then destroy script (exec f) (rel f) c s o else Ok s) end) P).
  { intros P H. destruct (st ob); try apply ends_fault; apply H; discriminate. }
  apply G. clear G. intros _. destruct (assert_ debug (0 <? rc ob)) as [u|e|] eqn:Ea; cbn [bind]; [|apply ends_fault|unfold assert_ in Ea; destruct (debug && _); discriminate].
  cbv zeta. set (n := match rc ob with O => wrap | S n => n end). set (ob1 := Obj n (st ob) (cls ob) (mem ob)).
  pose proof (pot_set s o ob ob1 Eo) as P1. set (s1 := set_obj s o ob1) in *. assert (pot1 ob1 = pot1 ob) as Q1 by reflexivity. rewrite Q1 in P1.
  destruct (n =? 0); [|apply ends_ok; lia]. unfold destroy.
  assert (Eo1 : nth_error (objs s1) o = Some ob1) by (unfold s1; rewrite set_nth, Nat.eqb_refl by exact Hlt; reflexivity).
  rewrite (slot_get_ok _ _ _ Eo1). cbn [bind]. cbn [ob1 st rc cls mem]. destruct (st ob) eqn:S0; try apply ends_fault.
  set (ob2 := Obj n Dying (cls ob) (mem ob)). pose proof (pot_set s1 o ob1 ob2 Eo1) as P2. set (s2 := set_obj s1 o ob2) in *.
  assert (pot1 ob1 = wt (cls ob)) as Q by (unfold pot1, ob1; cbn [st cls]; rewrite ?S0; reflexivity).
  assert (pot1 ob2 = 0) as Q2 by reflexivity. pose proof (script_weight (cls ob)) as SW. fold (cw (script (cls ob))) in SW.
  assert (HN' : pot s2 + cw (script (cls ob)) < pot s) by lia.
  pose proof (IHN (pred (pot s)) ltac:(lia)) as IH.
  apply (ends_bind (fun f => exec f (Ctx (Some o) (busy c) (pins c)) s2 (script (cls ob))) (fun s3 f => _) _ _
    (exec_ends (pred (pot s)) IH _ (script (cls ob)) s2 _ (le_n _) ltac:(lia))).
  intros s3 H3. destruct (slot_get (objs s3) o) as [ob3|e|] eqn:E3; cbn [bind]; [|apply ends_fault|exfalso; exact (get_nd _ _ E3)]. apply slot_get_inv in E3.
  set (ob4 := Obj (rc ob3) Ending (cls ob3) (mem ob3)). pose proof (pot_set s3 o ob3 ob4 E3) as P4. set (s4 := set_obj s3 o ob4) in *.
  assert (pot1 ob4 = 0) as Q4 by reflexivity.
  apply (ends_bind (fun f => drop_members (rel f) (Ctx None (busy c) (pins c)) s4 (rev (mem ob3))) (fun s5 f => _) _ _
    (drop_ends (pred (pot s)) IH _ (rev (mem ob3)) s4 ltac:(lia))).
  intros s5 H5. destruct (slot_get (objs s5) o) as [ob5|e|] eqn:E5; cbn [bind]; [|apply ends_fault|exfalso; exact (get_nd _ _ E5)]. apply slot_get_inv in E5.
  apply ends_ok. pose proof (pot_upd (objs s5) o ob5 (Obj (rc ob5) Dead (cls ob5) []) E5) as P6. unfold pot at 1. cbn [objs].
  assert (pot1 (Obj (rc ob5) Dead (cls ob5) []) = 0) as Q6 by reflexivity. fold (pot s5) in P6. lia.
Qed.
Lemma program_ends c s ks : exists f r, r <> Diverge /\ forall f', f <= f' -> exec f' c s ks = r.
Proof.
  destruct (exec_ends (pot s + cw ks) (fun s c o => rel_ends _ s c o) _ ks s c (le_n _) (le_n _)) as (r & f & Hr & H & _). exists f, r. auto.
Qed.
End E.
