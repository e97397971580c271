(** Properties C105 and C106 (amtl/am-thread.h). *)
From Verif Require Import Base ThreadModel ThreadSpec.
Local Open Scope nat_scope.

Section Proofs.
Variable p : platform.
Lemma rename_len l t n : length (rename l t n) = length l.
Proof. unfold rename. destruct (nth_error l t) as [[? ?]|]; [apply upd_length|reflexivity]. Qed.
Lemma rename_at l u n t th : nth_error l t = Some th -> exists th', nth_error (rename l u n) t = Some th' /\ pc th' = pc th /\ (u <> t -> th' = th) /\ (u = t -> tname th' = n).
Proof.
  intros H. unfold rename. destruct (Nat.eq_dec u t) as [->|Hu].
  - rewrite H. destruct th as [m q]. exists (Thr n q). split; [apply nth_error_upd_eq, nth_error_Some; congruence|]. cbn. tauto.
  - exists th. split; [|tauto]. destruct (nth_error l u) as [[? ?]|]; [|exact H]. now rewrite nth_error_upd_ne.
Qed.
Lemma setname_len k l t n : length (pthread_setname k l t n) = length l.
Proof. unfold pthread_setname. destruct (_ <=? _); [apply rename_len|reflexivity]. Qed.
Lemma setname_at k l u n t th : nth_error l t = Some th -> exists th', nth_error (pthread_setname k l u n) t = Some th' /\ pc th' = pc th /\ (u <> t -> th' = th) /\ (u = t -> length n <= k -> tname th' = n).
Proof.
  intros H. unfold pthread_setname. destruct (Nat.leb_spec (length n) k).
  - destruct (rename_at l u n t th H) as (th' & ? & ? & ? & ?). exists th'. tauto.
  - exists th. split; [exact H|]. split; [reflexivity|]. split; [tauto|lia].
Qed.
Lemma win_at o w u n t th : nth_error (thr w) t = Some th ->
  exists th', nth_error (thr (fst (win_set o w u n))) t = Some th' /\ pc th' = pc th /\ (u <> t -> th' = th) /\ (u = t -> takes (OnWindows o) n -> tname th' = as_shown (OnWindows o) n).
Proof.
  intros H. unfold win_set, takes, as_shown. destruct (found o); cbn [negb]; [|exists th; cbn; intuition discriminate]. destruct (has_fn o); cbn [negb]; [|exists th; cbn; intuition discriminate].
  destruct (from_bytes o n) as [v|] eqn:E; cbn; [|exists th; intuition congruence]. destruct (rename_at (thr w) u v t th H) as (th' & ? & ? & ? & ?). exists th'. tauto.
Qed.
Lemma win_len o w u n : length (thr (fst (win_set o w u n))) = length (thr w).
Proof. unfold win_set. destruct (negb (found o)); [reflexivity|]. destruct (negb (has_fn o)); [reflexivity|]. destruct (from_bytes o n); [cbn; apply rename_len|reflexivity]. Qed.
Lemma own_at w u n t th : nth_error (thr w) t = Some th ->
  exists th', nth_error (thr (fst (set_own p w u n))) t = Some th' /\ pc th' = pc th /\ (u <> t -> th' = th) /\ (u = t -> takes p n -> tname th' = as_shown p n).
Proof. intros H. unfold set_own. destruct p as [| |o]; [now apply setname_at|now apply setname_at|now apply win_at]. Qed.
Lemma own_len w u n : length (thr (fst (set_own p w u n))) = length (thr w).
Proof. unfold set_own. destruct p as [| |o]; [apply setname_len|apply setname_len|apply win_len]. Qed.
Lemma other_at w u n t th : nth_error (thr w) t = Some th -> exists th', nth_error (thr (fst (set_other p w u n))) t = Some th' /\ pc th' = pc th /\ (u <> t -> th' = th).
Proof.
  intros H. unfold set_other. destruct p as [| |o]; [|exists th; cbn; tauto|].
  - destruct (setname_at 15 (thr w) u n t th H) as (th' & ? & ? & ? & _). exists th'. tauto.
  - destruct (win_at o w u n t th H) as (th' & ? & ? & ? & _). exists th'. tauto.
Qed.
Lemma other_len w u n : length (thr (fst (set_other p w u n))) = length (thr w).
Proof. unfold set_other. destruct p as [| |o]; [apply setname_len|reflexivity|apply win_len]. Qed.
Lemma own_mem w u n : mem (fst (set_own p w u n)) = mem w.
Proof. unfold set_own, win_set. destruct p as [| |o]; try reflexivity. destruct (negb (found o)); [reflexivity|]. destruct (negb (has_fn o)); [reflexivity|]. now destruct (from_bytes o n). Qed.

Variable body : nat -> list N -> memory -> option memory.
Variable nested : N -> memory -> N.
Notation step := (step p body nested). Notation exec := (exec p body nested). Notation turn := (turn p body nested).
(** One step seen by thread [t]. *)
Lemma step_at w e w' tr t th : step w e = Ok (w', tr) -> nth_error (thr w) t = Some th ->
  (e <> ETurn t \/ pc th = Other) ->
  by_thread t tr = [] /\ exists th', nth_error (thr w') t = Some th' /\ pc th' = pc th /\ (~ renames t e -> th' = th).
Proof.
  intros E H Ne. destruct e as [l v|s n|c name f args room|u|u s|u s]; cbn [ThreadModel.step renames] in *.
  - injection E as <- <-. split; [reflexivity|]. exists th. auto.
  - injection E as <- <-. split; [reflexivity|]. exists th. auto.
  - unfold new_thread in E. destruct name as [s|]; [|discriminate]. destruct room; cbn [bind] in E; [|injection E as <- <-; split; [reflexivity|]; exists th; auto].
    destruct (nth_error (thr w) c) as [[cn q]|]; cbn [bind] in E; [|discriminate]. injection E as <- <-. split; [reflexivity|]. exists th. cbn [thr with_thr].
    split; [|auto]. rewrite nth_error_app1; [exact H|]. apply nth_error_Some. congruence.
  - unfold ThreadModel.turn in E. destruct (Nat.eq_dec u t) as [->|Hu].
    { destruct Ne as [Ne|Po]; [congruence|]. rewrite H in E. destruct th as [m q]. cbn in Po. subst q. injection E as <- <-. split; [reflexivity|]. eexists. split; [exact H|]. auto. }
    destruct (nth_error (thr w) u) as [[m [n f args|f args|]]|] eqn:Eu; [| |injection E as <- <-; split; [reflexivity|]; exists th; auto..].
    + destruct (set_own p w u n) as [w1 thrown] eqn:Es. destruct thrown; [discriminate|].
      destruct (nth_error (thr w1) u) as [[cur q]|] eqn:E1; [|discriminate]. injection E as <- <-. split; [reflexivity|].
      destruct (own_at w u n t th H) as (th' & H' & Hp & Hn & _). rewrite Es in H'. cbn [fst] in H'. specialize (Hn Hu). subst th'. exists th. cbn [thr with_thr]. rewrite nth_error_upd_ne by exact Hu. auto.
    + destruct (body f _ (mem w)) as [m'|]; [|discriminate]. injection E as <- <-. split; [cbn; destruct (Nat.eqb_spec u t); [congruence|reflexivity]|].
      exists th. cbn [thr with_thr with_mem]. rewrite nth_error_upd_ne by exact Hu. auto.
  - injection E as <- <-. split; [reflexivity|]. destruct (own_at w u (cstr w s) t th H) as (th' & H' & Hp & Hn & _). exists th'. auto.
  - injection E as <- <-. split; [reflexivity|]. destruct (other_at w u (cstr w s) t th H) as (th' & H' & Hp & Hn). exists th'. auto.
Qed.
Lemma step_len w e w' tr : step w e = Ok (w', tr) -> length (thr w) <= length (thr w').
Proof.
  intros E. destruct e as [l v|s n|c name f args room|u|u s|u s]; cbn [ThreadModel.step] in *; try (injection E as <- <-; cbn; rewrite ?own_len, ?other_len; lia).
  - unfold new_thread in E. destruct name as [s|]; [|discriminate]. destruct room; cbn [bind] in E; [|injection E as <- <-; lia].
    destruct (nth_error (thr w) c) as [[cn q]|]; cbn [bind] in E; [|discriminate]. injection E as <- <-. cbn. rewrite app_length. lia.
  - unfold ThreadModel.turn in E. destruct (nth_error (thr w) u) as [[m [n f args|f args|]]|] eqn:Eu; [| |injection E as <- <-; lia..].
    + pose proof (own_len w u n) as L. destruct (set_own p w u n) as [w1 thrown]. cbn [fst] in L. destruct thrown; [discriminate|].
      destruct (nth_error (thr w1) u) as [[cur q]|]; [|discriminate]. injection E as <- <-. cbn. rewrite upd_length. lia.
    + destruct (body f _ (mem w)) as [m'|]; [|discriminate]. injection E as <- <-. cbn. rewrite upd_length. lia.
Qed.
Lemma by_app t a b : by_thread t (a ++ b) = by_thread t a ++ by_thread t b.
Proof. apply filter_app. Qed.
(** Before the thread exists. *)
Lemma step_before w e w' tr t : step w e = Ok (w', tr) -> length (thr w) <= t -> by_thread t tr = [].
Proof.
  intros E L. destruct e as [l v|s n|c name f args room|u|u s|u s]; cbn [ThreadModel.step] in *; try (injection E as <- <-; reflexivity).
  - destruct (new_thread p w c name f args room); cbn [bind] in E; [|discriminate..]. injection E as <- <-. reflexivity.
  - unfold ThreadModel.turn in E. destruct (nth_error (thr w) u) as [[m [n f args|f args|]]|] eqn:Eu; [| |injection E as <- <-; reflexivity..].
    + destruct (set_own p w u n) as [w1 thrown]. destruct thrown; [discriminate|]. destruct (nth_error (thr w1) u) as [[cur q]|]; [|discriminate]. injection E as <- <-. reflexivity.
    + destruct (body f _ (mem w)) as [m'|]; [|discriminate]. injection E as <- <-. cbn. assert (u < length (thr w)) by (apply nth_error_Some; congruence).
      destruct (Nat.eqb_spec u t); [lia|reflexivity].
Qed.
Lemma exec_cons w e es w' tr : exec w (e :: es) = Ok (w', tr) -> exists w1 o1 o2, step w e = Ok (w1, o1) /\ exec w1 es = Ok (w', o2) /\ tr = o1 ++ o2.
Proof.
  cbn [ThreadModel.exec]. destruct (step w e) as [[w1 o1]| |]; cbn [bind]; [|discriminate..]. destruct (exec w1 es) as [[w2 o2]| |] eqn:E2; cbn [bind]; [|discriminate..].
  intros X. injection X as <- <-. exists w1, o1, o2. auto.
Qed.
Lemma exec_app w es1 es2 w' tr : exec w (es1 ++ es2) = Ok (w', tr) <-> exists w1 o1 o2, exec w es1 = Ok (w1, o1) /\ exec w1 es2 = Ok (w', o2) /\ tr = o1 ++ o2.
Proof.
  revert w tr. induction es1 as [|e es1 IH]; intros w tr; cbn [app].
  - split; [intros X; exists w, [], tr; auto|]. intros (w1 & o1 & o2 & X & Y & ->). cbn in X. injection X as <- <-. exact Y.
  - split.
    + intros X. apply exec_cons in X as (w1 & o1 & o2 & E1 & E2 & ->). apply IH in E2 as (w2 & o3 & o4 & E3 & E4 & ->). exists w2, (o1 ++ o3), o4.
      cbn [ThreadModel.exec]. rewrite E1. cbn [bind]. rewrite E3. cbn [bind]. rewrite app_assoc. auto.
    + intros (w1 & o1 & o2 & X & Y & ->). apply exec_cons in X as (w2 & o3 & o4 & E1 & E2 & ->). cbn [ThreadModel.exec]. rewrite E1. cbn [bind].
      rewrite (proj2 (IH w2 (o4 ++ o2))) by eauto 8. cbn [bind]. now rewrite app_assoc.
Qed.
Lemma exec_before : forall es w w' tr t, exec w es = Ok (w', tr) -> length (thr w') <= t -> by_thread t tr = [] /\ length (thr w) <= t.
Proof.
  induction es as [|e es IH]; intros w w' tr t E L; [cbn in E; injection E as <- <-; auto|].
  apply exec_cons in E as (w1 & o1 & o2 & E1 & E2 & ->). destruct (IH _ _ _ _ E2 L) as [B L1]. pose proof (step_len _ _ _ _ E1).
  rewrite by_app, B, (step_before _ _ _ _ _ E1) by lia. split; [reflexivity|lia].
Qed.
Lemma exec_quiet : forall es w w' tr t th, exec w es = Ok (w', tr) -> nth_error (thr w) t = Some th -> (turns_of t es = 0 \/ pc th = Other) ->
  by_thread t tr = [] /\ exists th', nth_error (thr w') t = Some th' /\ pc th' = pc th /\ (Forall (fun e => ~ renames t e) es -> th' = th).
Proof.
  induction es as [|e es IH]; intros w w' tr t th E H Q; [cbn in E; injection E as <- <-; split; [reflexivity|]; exists th; auto|].
  apply exec_cons in E as (w1 & o1 & o2 & E1 & E2 & ->).
  assert (Qe : e <> ETurn t \/ pc th = Other). { destruct Q as [Q|Q]; [left; intros ->; unfold turns_of in Q; cbn in Q; now rewrite Nat.eqb_refl in Q|auto]. }
  destruct (step_at _ _ _ _ _ _ E1 H Qe) as (B1 & th1 & H1 & P1 & N1).
  assert (Qs : turns_of t es = 0 \/ pc th1 = Other). { destruct Q as [Q|Q]; [left|right; congruence]. unfold turns_of in *. cbn in Q. destruct e; cbn in Q; try exact Q. destruct (t0 =? t); [discriminate|exact Q]. }
  destruct (IH _ _ _ _ _ E2 H1 Qs) as (B2 & th2 & H2 & P2 & N2). split; [now rewrite by_app, B1, B2|]. exists th2. split; [exact H2|]. split; [congruence|].
  intros F. inversion F; subst. rewrite (N2 H5). now apply N1.
Qed.
Lemma turns_split t : forall es n, turns_of t es = S n -> exists ea eb, es = ea ++ ETurn t :: eb /\ turns_of t ea = 0 /\ turns_of t eb = n.
Proof.
  unfold turns_of. induction es as [|e es IH]; intros n H; [discriminate|]. cbn [filter] in H.
  assert (D : e = ETurn t \/ (match e with ETurn u => u =? t | _ => false end) = false). { destruct e; auto. destruct (Nat.eqb_spec t0 t); subst; auto. }
  destruct D as [->|D].
  - rewrite Nat.eqb_refl in H. injection H as H. exists [], es. auto.
  - rewrite D in H. destruct (IH n H) as (ea & eb & -> & A & B). exists (e :: ea), eb. cbn [filter app]. rewrite D. auto.
Qed.
End Proofs.

(** C105: in every execution - whatever happens to the variables and to the name's buffer, in whatever order threads get their turns - a
    NewThread that has started a thread leads to exactly one invocation of the callable by that thread, with the arguments and the name as they were at
    the call of NewThread (std::ref arguments: as they are at the invocation), and not before the thread has its name. *)
Theorem C105_runs_once_partial : forall p body nested w es1 c s f args es2 w' tr, Forall plain args ->
  exec p body nested w (es1 ++ ENew c (Some s) f args true :: es2) = Ok (w', tr) ->
  exists w1 tr1, exec p body nested w es1 = Ok (w1, tr1) /\ let t := length (thr w1) in
    (turns_of t es2 <= 1 -> by_thread t tr = []) /\
    (forall ea eb ec, es2 = ea ++ ETurn t :: eb ++ ETurn t :: ec -> turns_of t ea = 0 -> turns_of t eb = 0 ->
       exists w2 tr2 n, exec p body nested w (es1 ++ ENew c (Some s) f args true :: ea ++ ETurn t :: eb) = Ok (w2, tr2) /\
         by_thread t tr = [Invoked t f (map (passed (mem w1) (mem w2)) args) n] /\
         (takes p (cstr w1 s) -> Forall (fun e => ~ renames t e) eb -> n = as_shown p (cstr w1 s))).
Proof.
  intros p body nested w es1 c s f args es2 w' tr Fp E. apply exec_app in E as (w1 & tr1 & o & E1 & E2 & ->). exists w1, tr1. split; [exact E1|]. intros t.
  assert (Bt : by_thread t tr1 = []) by (apply (exec_before p body nested es1 w w1 tr1 t E1); unfold t; lia).
  apply exec_cons in E2 as (w3 & o3 & o4 & E3 & E4 & ->). pose proof E3 as E3'. cbn [step new_thread] in E3. destruct (nth_error (thr w1) c) as [[cn q]|] eqn:Ec; [|discriminate]. cbn [bind] in E3. injection E3 as <- <-.
  set (w3 := with_thr _ _) in *. set (nm := cstr w1 s) in *. set (sa := map (store (mem w1)) args) in *.
  assert (H3 : nth_error (thr w3) t = Some (Thr (inherited p cn) (Starting nm f sa))). { unfold w3, t. cbn [thr with_thr]. rewrite nth_error_app2, Nat.sub_diag by lia. reflexivity. }
  rewrite !by_app, Bt. cbn [by_thread filter app].
  assert (First : forall w4 w5 o5 th, nth_error (thr w4) t = Some th -> pc th = Starting nm f sa -> step p body nested w4 (ETurn t) = Ok (w5, o5) ->
    o5 = [] /\ exists n, nth_error (thr w5) t = Some (Thr n (Calling f sa)) /\ (takes p nm -> n = as_shown p nm)).
  { intros w4 w5 o5 th H4 P4 E5. cbn [step] in E5. unfold turn in E5. rewrite H4 in E5. destruct th as [m q']. cbn in P4. subst q'.
    destruct (own_at p w4 t nm t _ H4) as (th' & H' & Hp & _ & Hn). destruct (set_own p w4 t nm) as [w6 thrown] eqn:Es. cbn [fst] in H'. destruct thrown; [discriminate|].
    rewrite H' in E5. destruct th' as [cur q']. injection E5 as <- <-. split; [reflexivity|]. exists cur. cbn [thr with_thr]. split; [apply nth_error_upd_eq, nth_error_Some; congruence|]. now apply Hn. }
  split.
  - intros L. destruct (turns_of t es2) as [|k] eqn:Et.
    + apply (exec_quiet p body nested es2 w3 w' o4 t _ E4 H3). auto.
    + assert (k = 0) by lia. subst k. apply turns_split in Et as (ea & eb & -> & Ea & Eb). apply exec_app in E4 as (w4 & o5 & o6 & E5 & E6 & ->). apply exec_cons in E6 as (w5 & o7 & o8 & E7 & E8 & ->).
      destruct (exec_quiet p body nested ea w3 w4 o5 t _ E5 H3) as (B5 & th & H4 & P4 & _); [auto|]. destruct (First _ _ _ _ H4 P4 E7) as (-> & n & H5 & _).
      destruct (exec_quiet p body nested eb w5 w' o8 t _ E8 H5) as (B8 & _); [auto|]. rewrite !by_app, B5, B8. reflexivity.
  - intros ea eb ec -> Ea Eb. apply exec_app in E4 as (w4 & o5 & o6 & E5 & E6 & ->). apply exec_cons in E6 as (w5 & o7 & o8 & E7 & E8 & ->).
    apply exec_app in E8 as (w6 & o9 & o10 & E9 & E10 & ->). apply exec_cons in E10 as (w7 & o11 & o12 & E11 & E12 & ->).
    destruct (exec_quiet p body nested ea w3 w4 o5 t _ E5 H3) as (B5 & th & H4 & P4 & _); [auto|]. destruct (First _ _ _ _ H4 P4 E7) as (-> & n & H5 & Hn).
    destruct (exec_quiet p body nested eb w5 w6 o9 t _ E9 H5) as (B9 & th6 & H6 & P6 & N6); [auto|].
    pose proof E11 as E11'. cbn [step] in E11. unfold turn in E11. rewrite H6 in E11. destruct th6 as [n6 q6]. cbn in P6. subst q6.
    destruct (body f (map (fetch nested (mem w6)) sa) (mem w6)) as [m|] eqn:Eb'; [|discriminate]. injection E11 as <- <-.
    assert (H7 : nth_error (thr (with_mem (with_thr w6 (upd (thr w6) t (Thr n6 Other))) m)) t = Some (Thr n6 Other)). { cbn. apply nth_error_upd_eq, nth_error_Some. congruence. }
    destruct (exec_quiet p body nested ec _ w' o12 t _ E12 H7) as (B12 & _); [auto|].
    exists w6, (tr1 ++ [] ++ o5 ++ [] ++ o9), n6. split; [|split].
    + apply exec_app. exists w1, tr1, ([] ++ o5 ++ [] ++ o9). split; [exact E1|]. split; [|reflexivity]. cbn [exec]. rewrite E3'. cbn [bind].
      rewrite (proj2 (exec_app p body nested w3 ea (ETurn t :: eb) w6 (o5 ++ [] ++ o9))); [reflexivity|]. exists w4, o5, ([] ++ o9). split; [exact E5|]. split; [|reflexivity].
      cbn [exec]. rewrite E7. cbn [bind]. rewrite E9. reflexivity.
    + rewrite !by_app, B5, B9, B12. cbn [by_thread filter app]. rewrite Nat.eqb_refl. unfold sa. rewrite map_map. cbn [app].
      rewrite (map_ext_in (fun x => fetch nested (mem w6) (store (mem w1) x)) (passed (mem w1) (mem w6))); [reflexivity|].
      intros a Ha. rewrite Forall_forall in Fp. specialize (Fp a Ha). now destruct a.
    + intros T F. specialize (N6 F). injection N6 as <-. now apply Hn.
Qed.
Print Assumptions C105_runs_once_partial.
(** Nobody else invokes anything: every invocation is by a thread that a NewThread has started. *)
Theorem C105_only_started_threads : forall p body nested w es w' tr, Forall (fun th => pc th = Other) (thr w) -> exec p body nested w es = Ok (w', tr) ->
  forall t f vs n, In (Invoked t f vs n) tr ->
  exists es1 c s args es2 w1 tr1, es = es1 ++ ENew c (Some s) f args true :: es2 /\ exec p body nested w es1 = Ok (w1, tr1) /\ t = length (thr w1).
Proof.
  intros p body nested w es w' tr F E t f vs n I.
  assert (B : by_thread t tr <> []). { intros B. assert (X : In (Invoked t f vs n) (by_thread t tr)) by (apply filter_In; rewrite Nat.eqb_refl; auto). now rewrite B in X. }
  destruct (nth_error (thr w) t) as [th|] eqn:H.
  { exfalso. apply B. rewrite Forall_forall in F. apply (exec_quiet p body nested es w w' tr t th E H). right. apply F. eapply nth_error_In; eauto. }
  apply nth_error_None in H. clear F.
  assert (G : exists es1 c s g args es2 w1 tr1 w2 o2, es = es1 ++ ENew c (Some s) g args true :: es2 /\ exec p body nested w es1 = Ok (w1, tr1) /\ t = length (thr w1) /\
     step p body nested w1 (ENew c (Some s) g args true) = Ok (w2, o2) /\ exists o3, exec p body nested w2 es2 = Ok (w', o3) /\ by_thread t tr = by_thread t o3).
  { clear I. revert w tr E H B. induction es as [|e es IH]; intros w tr E H B; [cbn in E; injection E as <- <-; now destruct B|].
    pose proof E as E0. apply exec_cons in E as (w1 & o1 & o2 & E1 & E2 & ->). pose proof (step_before p body nested w e w1 o1 t E1 H) as B1.
    destruct (Nat.le_gt_cases (length (thr w1)) t) as [L|L].
    - destruct (IH w1 o2 E2 L) as (es1 & c & s & g & args & es2 & w2 & tr1 & w3 & o3 & -> & X1 & X2 & X3 & o4 & X4 & X5); [intros B2; apply B; now rewrite by_app, B1, B2|].
      exists (e :: es1), c, s, g, args, es2, w2, (o1 ++ tr1), w3, o3. split; [reflexivity|]. split; [cbn [exec]; rewrite E1; cbn [bind]; rewrite X1; reflexivity|]. split; [exact X2|]. split; [exact X3|].
      exists o4. split; [exact X4|]. now rewrite by_app, B1, X5.
    - assert (N : exists c s g args, e = ENew c (Some s) g args true /\ length (thr w1) = S (length (thr w))).
      { destruct e as [l v|s m|c name g args room|u|u s|u s]; cbn [step] in E1.
        - injection E1 as <- <-. cbn in L. lia.
        - injection E1 as <- <-. cbn in L. lia.
        - unfold new_thread in E1. destruct name as [s|]; [|discriminate]. destruct room; cbn [bind] in E1; [|injection E1 as <- <-; lia].
          destruct (nth_error (thr w) c) as [[cn q]|]; cbn [bind] in E1; [|discriminate]. injection E1 as <- <-. exists c, s, g, args. split; [reflexivity|]. cbn. rewrite app_length. cbn. lia.
        - exfalso. unfold turn in E1. destruct (nth_error (thr w) u) as [[m [n' g args|g args|]]|] eqn:Eu; [| |injection E1 as <- <-; lia..].
          + pose proof (own_len p w u n') as Lo. destruct (set_own p w u n') as [w4 thrown]. cbn [fst] in Lo. destruct thrown; [discriminate|].
            destruct (nth_error (thr w4) u) as [[cur q]|]; [|discriminate]. injection E1 as <- <-. cbn in L. rewrite upd_length in L. lia.
          + destruct (body g _ (mem w)) as [m'|]; [|discriminate]. injection E1 as <- <-. cbn in L. rewrite upd_length in L. lia.
        - injection E1 as <- <-. rewrite own_len in L. lia.
        - injection E1 as <- <-. rewrite other_len in L. lia. }
      destruct N as (c & s & g & args & -> & Ln). exists [], c, s, g, args, es, w, [], w1, o1. split; [reflexivity|]. split; [reflexivity|]. split; [lia|]. split; [exact E1|]. exists o2. split; [exact E2|]. now rewrite by_app, B1. }
  destruct G as (es1 & c & s & g & args & es2 & w1 & tr1 & w2 & o2 & -> & X1 & X2 & X3 & o3 & X4 & X5).
  assert (g = f); [|subst g; exists es1, c, s, args, es2, w1, tr1; auto].
  cbn [step new_thread] in X3. destruct (nth_error (thr w1) c) as [[cn q]|]; [|discriminate]. cbn [bind] in X3. injection X3 as <- <-.
  assert (In (Invoked t f vs n) o3). { assert (X : In (Invoked t f vs n) (by_thread t tr)) by (apply filter_In; rewrite Nat.eqb_refl; auto). rewrite X5 in X. now apply filter_In in X. }
  match type of X4 with exec _ _ _ ?ww _ = _ => assert (H2 : exists th, nth_error (thr ww) t = Some th /\ (exists nm sa, pc th = Starting nm g sa \/ pc th = Calling g sa \/ pc th = Other)) end.
  { eexists. split; [cbn [thr with_thr]; rewrite X2, nth_error_app2, Nat.sub_diag by lia; reflexivity|]. eexists _, _. left. reflexivity. }
  clear X5 X1 X2 B E I H. revert H0 H2 X4. generalize (with_thr w1 (thr w1 ++ [Thr (inherited p cn) (Starting (cstr w1 s) g (map (store (mem w1)) args))])) as ww. revert o3.
  induction es2 as [|e es2 IH]; intros o3 ww I H2 X; [cbn in X; injection X as <- <-; destruct I|]. apply exec_cons in X as (w3 & o4 & o5 & X1 & X2 & ->).
  destruct H2 as (th & Ht & nm & sa & Hp).
  assert (D : e = ETurn t \/ e <> ETurn t). { destruct e; try (now right). destruct (Nat.eq_dec t0 t); [left|right]; congruence. }
  destruct D as [->|D].
  - cbn [step] in X1. unfold turn in X1. rewrite Ht in X1. destruct th as [m q']. cbn in Hp. destruct Hp as [->|[->| ->]].
    + destruct (own_at p ww t nm t _ Ht) as (th' & H' & Hpc & _). destruct (set_own p ww t nm) as [w6 thrown]. cbn [fst] in H'. destruct thrown; [discriminate|]. rewrite H' in X1. destruct th' as [cur q'].
      injection X1 as <- <-. eapply IH; [exact I| |exact X2]. exists (Thr cur (Calling g sa)). split; [cbn; apply nth_error_upd_eq, nth_error_Some; congruence|]. exists nm, sa. cbn. auto.
    + destruct (body g _ (mem ww)) as [m'|]; [|discriminate]. injection X1 as <- <-. apply in_app_or in I as [[I|[]]|I]; [congruence|]. eapply IH; [exact I| |exact X2].
      exists (Thr m Other). split; [cbn; apply nth_error_upd_eq, nth_error_Some; congruence|]. exists nm, sa. cbn. auto.
    + injection X1 as <- <-. eapply IH; [exact I| |exact X2]. exists (Thr m Other). split; [exact Ht|]. exists nm, sa. cbn. auto.
  - destruct (step_at p body nested ww e w3 o4 t th X1 Ht (or_introl D)) as (B4 & th' & Ht' & Pt' & _). apply in_app_or in I as [I|I].
    + assert (Y : In (Invoked t f vs n) (by_thread t o4)) by (apply filter_In; rewrite Nat.eqb_refl; auto). now rewrite B4 in Y.
    + eapply IH; [exact I| |exact X2]. exists th'. split; [exact Ht'|]. exists nm, sa. now rewrite Pt'.
Qed.
Print Assumptions C105_only_started_threads.

(** Refuted for bind expressions as arguments: the callable gets what the expression evaluates to, not the object. *)
Theorem C105_nested_bind_refuted : forall p body nested w c s f b th m, nth_error (thr w) c = Some th -> takes p (cstr w s) ->
  nested b (mem w) <> b -> body f [nested b (mem w)] (mem w) = Some m ->
  exists w' n, let t := length (thr w) in
    exec p body nested w [ENew c (Some s) f [ABind b] true; ETurn t; ETurn t] = Ok (w', [Invoked t f [nested b (mem w)] n]) /\
    [nested b (mem w)] <> map (passed (mem w) (mem w)) [ABind b].
Proof.
  intros p body nested w c s f b [cn q] m H T D Eb. set (t := length (thr w)).
  set (w1 := with_thr w (thr w ++ [Thr (inherited p cn) (Starting (cstr w s) f [SBind b])])).
  assert (H1 : nth_error (thr w1) t = Some (Thr (inherited p cn) (Starting (cstr w s) f [SBind b]))). { unfold w1, t. cbn. rewrite nth_error_app2, Nat.sub_diag by lia. reflexivity. }
  assert (X : snd (set_own p w1 t (cstr w s)) = false).
  { destruct p as [| |o]; cbn; try reflexivity. unfold win_set. destruct T as (-> & -> & Fb). cbn. destruct (from_bytes o (cstr w s)); [reflexivity|congruence]. }
  destruct (own_at p w1 t (cstr w s) t _ H1) as (th' & H' & Hp & _). pose proof (own_mem p w1 t (cstr w s)) as Hm. destruct (set_own p w1 t (cstr w s)) as [w2 x] eqn:Es. cbn in X, H', Hm. subst x. destruct th' as [cur q'].
  assert (H2 : nth_error (thr (with_thr w2 (upd (thr w2) t (Thr cur (Calling f [SBind b]))))) t = Some (Thr cur (Calling f [SBind b]))). { cbn. apply nth_error_upd_eq, nth_error_Some. congruence. }
  eexists _, cur. cbv zeta. split.
  - cbn [exec step new_thread]. rewrite H. cbn [bind map store]. fold w1. unfold turn at 1. rewrite H1, Es, H'. cbn [bind]. unfold turn. rewrite H2. cbn [mem with_thr map fetch]. rewrite Hm. cbn [mem w1 with_thr].
    change (mem w1) with (mem w). rewrite Eb. reflexivity.
  - cbn. congruence.
Qed.
Print Assumptions C105_nested_bind_refuted.
(** Refuted: a name of more than 15 characters on Linux is not set; the thread runs under its creator's name. *)
Theorem C105_long_name_refuted : forall body nested w c s f cn q m, nth_error (thr w) c = Some (Thr cn q) -> 15 < length (cstr w s) -> cn <> cstr w s ->
  body f [] (mem w) = Some m ->
  exists w', let t := length (thr w) in
    exec OnLinux body nested w [ENew c (Some s) f [] true; ETurn t; ETurn t] = Ok (w', [Invoked t f [] cn]).
Proof.
  intros body nested w c s f cn q m H L D Eb. eexists. intros t. cbn [exec step new_thread]. rewrite H. cbn [bind]. unfold turn at 1. cbn [thr with_thr].
  unfold t. rewrite nth_error_app2, Nat.sub_diag by lia. cbn [nth_error]. unfold set_own, pthread_setname. destruct (Nat.leb_spec (length (cstr w s)) 15); [lia|].
  cbn [thr with_thr]. rewrite nth_error_app2, Nat.sub_diag by lia. cbn [nth_error bind]. unfold turn. cbn [thr with_thr mem].
  rewrite nth_error_upd_eq by (rewrite app_length; cbn; lia). cbn [map]. rewrite Eb. reflexivity.
Qed.
Print Assumptions C105_long_name_refuted.
(** Refuted: on Windows a name that is not valid UTF-8 ends the process, before the callable runs. *)
Theorem C105_invalid_name_refuted : forall o body nested w c s f args th, nth_error (thr w) c = Some th -> found o = true -> has_fn o = true -> from_bytes o (cstr w s) = None ->
  exec (OnWindows o) body nested w [ENew c (Some s) f args true; ETurn (length (thr w))] = Fault Abort.
Proof.
  intros o body nested w c s f args [cn q] H F1 F2 Fb. cbn [exec step new_thread]. rewrite H. cbn [bind]. unfold turn. cbn [thr with_thr].
  rewrite nth_error_app2, Nat.sub_diag by lia. cbn [nth_error]. unfold set_own, win_set. rewrite F1, F2. cbn [negb]. rewrite Fb. reflexivity.
Qed.
Print Assumptions C105_invalid_name_refuted.

(** C106: SetThreadName names the thread, and only that thread, and changes nothing else: in particular no reference to a library is left. *)
Definition only_renamed (w w' : world) (t : nat) (n : chars) : Prop :=
  mem w' = mem w /\ cstr w' = cstr w /\ k32 w' = k32 w /\ length (thr w') = length (thr w) /\
  forall u th, nth_error (thr w) u = Some th -> nth_error (thr w') u = Some (if u =? t then Thr n (pc th) else th).
Lemma rename_spec l t n u th : nth_error l u = Some th -> nth_error (rename l t n) u = Some (if u =? t then Thr n (pc th) else th).
Proof.
  intros H. unfold rename. destruct (Nat.eqb_spec u t) as [->|Hu].
  - rewrite H. destruct th. apply nth_error_upd_eq, nth_error_Some. congruence.
  - destruct (nth_error l t) as [[? ?]|]; [|exact H]. rewrite nth_error_upd_ne; auto.
Qed.
Theorem C106_names_partial : forall p w t n, takes p n ->
  (exists w', set_own p w t n = (w', false) /\ only_renamed w w' t (as_shown p n)) /\
  (p <> OnMac -> exists w', set_other p w t n = (w', false) /\ only_renamed w w' t (as_shown p n)).
Proof.
  intros p w t n T.
  assert (W : forall o, p = OnWindows o -> exists w', win_set o w t n = (w', false) /\ only_renamed w w' t (as_shown p n)).
  { intros o ->. destruct T as (F1 & F2 & Fb). unfold win_set. rewrite F1, F2. cbn [negb]. unfold as_shown. destruct (from_bytes o n) as [u|]; [|congruence]. eexists. split; [reflexivity|].
    split; [reflexivity|]. split; [reflexivity|]. split; [reflexivity|]. split; [cbn; apply rename_len|]. intros v th. cbn. apply rename_spec. }
  assert (P : forall k, length n <= k -> only_renamed w (with_thr w (pthread_setname k (thr w) t n)) t n).
  { intros k L. unfold pthread_setname. destruct (Nat.leb_spec (length n) k); [|lia]. split; [reflexivity|]. split; [reflexivity|]. split; [reflexivity|]. split; [cbn; apply rename_len|]. intros v th. cbn. apply rename_spec. }
  destruct p as [| |o]; cbn [takes set_own set_other as_shown] in *; (split; [|intros NM]); try (eexists; split; [reflexivity|now apply P]); try congruence; now apply W.
Qed.
Print Assumptions C106_names_partial.
(** Whatever the name, the platform and the outcome, no other thread, no variable and no string is changed. *)
Theorem C106_nothing_else : forall p w t n w' x, set_own p w t n = (w', x) \/ set_other p w t n = (w', x) ->
  mem w' = mem w /\ cstr w' = cstr w /\ length (thr w') = length (thr w) /\
  forall u th, nth_error (thr w) u = Some th -> exists m, nth_error (thr w') u = Some (Thr m (pc th)) /\ (u <> t -> m = tname th).
Proof.
  intros p w t n w' x E.
  assert (P : forall k, mem (with_thr w (pthread_setname k (thr w) t n)) = mem w /\ cstr (with_thr w (pthread_setname k (thr w) t n)) = cstr w /\ length (thr (with_thr w (pthread_setname k (thr w) t n))) = length (thr w) /\
    forall u th, nth_error (thr w) u = Some th -> exists m, nth_error (thr (with_thr w (pthread_setname k (thr w) t n))) u = Some (Thr m (pc th)) /\ (u <> t -> m = tname th)).
  { intros k. split; [reflexivity|]. split; [reflexivity|]. split; [apply setname_len|]. intros u th H. destruct (setname_at k (thr w) t n u th H) as ([m q] & H' & Hp & Hn & _). cbn in Hp. subst q. exists m. split; [exact H'|].
    intros D. now rewrite <- (Hn (not_eq_sym D)). }
  assert (I : mem w = mem w /\ cstr w = cstr w /\ length (thr w) = length (thr w) /\ forall u th, nth_error (thr w) u = Some th -> exists m, nth_error (thr w) u = Some (Thr m (pc th)) /\ (u <> t -> m = tname th)).
  { repeat (split; [reflexivity|]). intros u [m q] H. exists m. auto. }
  assert (W : forall o, win_set o w t n = (w', x) -> mem w' = mem w /\ cstr w' = cstr w /\ length (thr w') = length (thr w) /\
    forall u th, nth_error (thr w) u = Some th -> exists m, nth_error (thr w') u = Some (Thr m (pc th)) /\ (u <> t -> m = tname th)).
  { intros o. unfold win_set. destruct (negb (found o)); [intros X; injection X as <- <-; exact I|]. destruct (negb (has_fn o)); [intros X; injection X as <- <-; exact I|].
    destruct (from_bytes o n) as [v|]; intros X; injection X as <- <-; [|exact I]. split; [reflexivity|]. split; [reflexivity|]. split; [cbn; apply rename_len|]. intros u th H. cbn.
    destruct (rename_at (thr w) t v u th H) as ([m q] & H' & Hp & Hn & _). cbn in Hp. subst q. exists m. split; [exact H'|]. intros D. now rewrite <- (Hn (not_eq_sym D)). }
  destruct p as [| |o]; cbn in E; destruct E as [E|E]; try (injection E as <- <-; auto); now apply (W o).
Qed.
Print Assumptions C106_nothing_else.
(** Refuted: names that are too long are dropped; on macOS another thread cannot be named at all. *)
Theorem C106_too_long_refuted : forall w t n, 15 < length n -> thr (fst (set_own OnLinux w t n)) = thr w /\ thr (fst (set_other OnLinux w t n)) = thr w.
Proof. intros w t n L. unfold set_own, set_other, pthread_setname. destruct (Nat.leb_spec (length n) 15); [lia|]. auto. Qed.
Print Assumptions C106_too_long_refuted.
Theorem C106_macos_other_refuted : forall w t n, set_other OnMac w t n = (w, false).
Proof. reflexivity. Qed.
Print Assumptions C106_macos_other_refuted.
(** No exception leaves SetThreadName, except for a name that is not UTF-8 on a Windows with SetThreadDescription. *)
Theorem C106_exception_exact : forall p w t n,
  let throws := exists o, p = OnWindows o /\ found o = true /\ has_fn o = true /\ from_bytes o n = None in
  (snd (set_own p w t n) = true <-> throws) /\ (snd (set_other p w t n) = true <-> throws).
Proof.
  assert (G : forall o w t n, snd (win_set o w t n) = true <-> found o = true /\ has_fn o = true /\ from_bytes o n = None).
  { intros o w t n. unfold win_set. destruct (found o); cbn; [|intuition discriminate].
    destruct (has_fn o); cbn; [|intuition discriminate]. destruct (from_bytes o n); cbn; intuition discriminate. }
  intros p w t n throws. subst throws. destruct p as [| |o]; cbn.
  1, 2: split; (split; [discriminate|intros (o & H & _); discriminate]).
  rewrite G. split; (split; [intros (A & B & C); exists o; auto|intros (o' & [= <-] & H); exact H]).
Qed.
Print Assumptions C106_exception_exact.
(** Refuted: without SetThreadDescription, or if the name is not valid UTF-8, every call leaves a reference to kernel32.dll. *)
Fixpoint name_often (o : windows) (w : world) (t : nat) (ns : list chars) : world := match ns with [] => w | n :: ns => name_often o (fst (win_set o w t n)) t ns end.
Theorem C106_leaked_reference_refuted : forall o t ns w, found o = true -> has_fn o = false \/ Forall (fun n => from_bytes o n = None) ns ->
  k32 (name_often o w t ns) = k32 w + length ns.
Proof.
  intros o t ns w F. revert w. induction ns as [|n ns IH]; intros w H; [cbn; lia|]. cbn [name_often length].
  assert (E : k32 (fst (win_set o w t n)) = S (k32 w)).
  { unfold win_set. rewrite F. cbn [negb]. destruct H as [->|H]; [reflexivity|]. inversion H as [|? ? Hn _]; subst. rewrite Hn. destruct (negb (has_fn o)); reflexivity. }
  rewrite IH, E; [lia|]. destruct H as [H|H]; [auto|]. inversion H; auto.
Qed.
Print Assumptions C106_leaked_reference_refuted.

(** A caller that changes its variable and reuses the name's buffer as soon as NewThread has returned. *)
Definition demo : world := World (fun _ => 0%N) (fun _ => [119; 49]%N) [Thr [109]%N Other] 0.
Definition demo_body (f : nat) (vs : list N) (m : memory) : option memory := Some m.
Definition demo_run : list event :=
  [EWrite 0 5%N; EWrite 1 6%N; ENew 0 (Some 3) 7 [AVal 4%N; AVar 0; ARef 1] true; EWrite 0 50%N; EWrite 1 60%N; EChars 3 [120]%N; ETurn 0; ETurn 1;
   ENew 0 (Some 3) 8 [] true; ENew 0 (Some 3) 9 [] false; ETurn 2; ETurn 2; ETurn 1; ETurn 1].
Example C105_nonvacuous : exists w', exec OnLinux demo_body (fun b _ => b) demo demo_run = Ok (w', [Invoked 2 8 [] [120]%N; Invoked 1 7 [4; 5; 60]%N [119; 49]%N]).
Proof. eexists. vm_compute. reflexivity. Qed.
Example C106_nonvacuous : takes (OnWindows (Windows true true (fun n => Some n))) [97]%N /\ k32 (fst (set_own (OnWindows (Windows true true (fun n => Some n))) demo 0 [97]%N)) = 0 /\
  k32 (name_often (Windows true false (fun n => Some n)) demo 0 [[97]; [98]]%N) = 2.
Proof. repeat split; try (vm_compute; reflexivity). discriminate. Qed.
