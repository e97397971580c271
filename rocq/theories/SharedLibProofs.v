From Verif Require Import Base RefcountModel RefcountSpec RefcountProofs RefcountState RefcountStep RefcountAlias SharedLibModel SharedLibSpec.
Local Open Scope nat_scope.

(** ** A refcounting step only adds to the log and to the heap *)
Definition grows (k : nat) (h h' : heap) : Prop :=
  (exists new, log h' = new ++ log h) /\ length (objs h') = k + length (objs h).
Lemma grows_refl h : grows 0 h h.
Proof. split; [now exists []|reflexivity]. Qed.
Lemma grows_trans k j a b c : grows k a b -> grows j b c -> grows (k + j) a c.
Proof. intros [[n1 E1] L1] [[n2 E2] L2]. split; [exists (n2 ++ n1); rewrite E2, E1; now rewrite app_assoc|lia]. Qed.
Lemma grows_set h o ob : grows 0 h (set_obj h o ob).
Proof. split; [now exists []|]. cbn. now rewrite upd_length. Qed.

Section D.
Variable debug : bool.
Lemma addref_grows h p h' : AddRef h p = Ok h' -> grows 0 h h'.
Proof.
  destruct p as [o|]; cbn; [|now injection 1 as <-; apply grows_refl]. unfold obj_AddRef.
  destruct (get_alive h o) as [ob| |]; cbn [bind]; try discriminate. injection 1 as <-. apply grows_set.
Qed.
Lemma finish_grows h o h' : finish h o = Ok h' -> grows 0 h h'.
Proof.
  unfold finish. destruct (slot_get (objs h) o) as [ob| |]; cbn [bind]; try discriminate. destruct (st ob); try discriminate.
  injection 1 as <-. split; [now exists [o]|]. cbn. now rewrite upd_length.
Qed.
Lemma release_list_grows rel : (forall h o h', rel h o = Ok h' -> grows 0 h h') ->
  forall ps h h', release_list rel h ps = Ok h' -> grows 0 h h'.
Proof.
  intros Hr. induction ps as [|[o|] ps IH]; intros h h' H; cbn in H.
  - injection H as <-. apply grows_refl.
  - destruct (rel h o) as [h1| |] eqn:E; cbn [bind] in H; try discriminate.
    change 0 with (0 + 0). eapply grows_trans; eauto.
  - eauto.
Qed.
Lemma obj_release_grows : forall fuel h o h', obj_Release debug fuel h o = Ok h' -> grows 0 h h'.
Proof.
  induction fuel as [|f IH]; intros h o h' H; cbn [obj_Release] in H; [discriminate|].
  destruct (get_alive h o) as [ob| |]; cbn [bind] in H; try discriminate.
  destruct (assert_ debug (0 <? rc ob)) as [[]| |]; cbn [bind] in H; try discriminate.
  destruct (rc ob) as [|[|n]].
  - injection H as <-. apply grows_refl.
  - destruct (release_list _ _ _) as [h1| |] eqn:E; cbn [bind] in H; try discriminate.
    apply finish_grows in H. apply (release_list_grows _ IH) in E.
    change 0 with (0 + (0 + 0)). eapply grows_trans; [apply (grows_set h o)|]. eapply grows_trans; eauto.
  - injection H as <-. apply grows_set.
Qed.
Lemma release_grows h p h' : Release debug h p = Ok h' -> grows 0 h h'.
Proof. destruct p as [o|]; cbn -[obj_Release]; [apply obj_release_grows|]. injection 1 as <-. apply grows_refl. Qed.
Lemma set_var_grows s v x s' : set_var s v x = Ok s' -> grows 0 (hp s) (hp s').
Proof. unfold set_var. destruct (slot_set (vars s) v x) as [l| |]; cbn [bind]; try discriminate. injection 1 as <-. apply grows_refl. Qed.
Lemma new_var_grows s v x s' : new_var s v x = Ok s' -> grows 0 (hp s) (hp s').
Proof. unfold new_var. destruct (slot_get (vars s) v) as [[y|]| |]; cbn [bind]; try discriminate. apply set_var_grows. Qed.
Lemma write_grows s l p s' : write s l p = Ok s' -> grows 0 (hp s) (hp s').
Proof.
  destruct l as [v|y j]; cbn.
  - destruct (get_var s v) as [[q|q|q]| |]; cbn [bind]; try discriminate. apply set_var_grows.
  - destruct (get_alive (hp s) y) as [ob| |]; cbn [bind]; try discriminate.
    destruct (slot_set (flds ob) j p) as [fs| |]; cbn [bind]; try discriminate. injection 1 as <-. apply grows_set.
Qed.
Lemma lift_grows s x s' : lift s x = Ok s' -> (forall h, x = Ok h -> grows 0 (hp s) h) -> grows 0 (hp s) (hp s').
Proof. unfold lift. destruct x as [h| |]; cbn [bind]; try discriminate. injection 1 as <-. cbn. eauto. Qed.
Lemma lift_release s p s' : lift s (Release debug (hp s) p) = Ok s' -> grows 0 (hp s) (hp s').
Proof. intros H. eapply lift_grows; [exact H|]. intros h E. eapply release_grows; eauto. Qed.
Lemma lift_addref s p s' : lift s (AddRef (hp s) p) = Ok s' -> grows 0 (hp s) (hp s').
Proof. intros H. eapply lift_grows; [exact H|]. intros h E. eapply addref_grows; eauto. Qed.
Lemma alloc_grows s k : grows 1 (hp s) (hp (fst (alloc s k))).
Proof. split; [now exists []|]. cbn. rewrite app_length. cbn. lia. Qed.

Definition news (o : op) : nat := match o with CtorNew _ _ | AssignNew _ _ => 1 | _ => 0 end.
Lemma g00 a b c : grows 0 a b -> grows 0 b c -> grows 0 a c.
Proof. intros H1 H2. exact (grows_trans 0 0 a b c H1 H2). Qed.
Lemma g10 a b c : grows 1 a b -> grows 0 b c -> grows 1 a c.
Proof. intros H1 H2. exact (grows_trans 1 0 a b c H1 H2). Qed.

Ltac chop H := repeat match type of H with
  | bind ?e _ = Ok _ => let E := fresh "E" in destruct e eqn:E; cbn [bind] in H; [|discriminate|discriminate]
  end.
Ltac grow_facts := repeat match goal with
  | E : new_var _ _ _ = Ok _ |- _ => apply new_var_grows in E
  | E : set_var _ _ _ = Ok _ |- _ => apply set_var_grows in E
  | E : write _ _ _ = Ok _ |- _ => apply write_grows in E
  | E : lift _ (Release _ _ _) = Ok _ |- _ => apply lift_release in E
  | E : lift _ (AddRef _ _) = Ok _ |- _ => apply lift_addref in E
  end.
Lemma step_grows s o s' : step debug s o = Ok s' -> grows (news o) (hp s) (hp s').
Proof.
  destruct o; intros H; unfold step in H; cbn [news];
    try (destruct (alloc s _) as [s0 n0] eqn:Al; pose proof (alloc_grows s k) as GA; rewrite Al in GA; cbn [fst] in GA);
    chop H; try match type of H with context [match ?x with VRef _ => _ | VAl _ => _ | VRaw _ => _ end] => destruct x; try discriminate; chop H end;
    grow_facts; eauto using g00, g10.
Qed.

(** ** The books *)
Definition sound (x : world) : Prop :=
  sinv (rs x) None /\ length (libs x) = length (objs (hp (rs x)))
  /\ opened x = flat_map as_list (libs x)
  /\ closed x = run_destructors (libs x) (rev (log (hp (rs x)))).

Lemma run_destructors_ext ls more os : (forall o, In o os -> o < length ls) ->
  run_destructors (ls ++ more) os = run_destructors ls os.
Proof.
  unfold run_destructors. induction os as [|o os IH]; intros H; [reflexivity|]. cbn. f_equal.
  - unfold lib_of. rewrite nth_error_app1; [reflexivity|]. apply H. now left.
  - apply IH. intros; apply H; now right.
Qed.
Lemma sinv_log_created s : sinv s None -> forall o, In o (log (hp s)) -> o < length (objs (hp s)).
Proof. intros H o Ho. apply (proj1 (proj2 (proj2 (sinv_balanced s H)))) in Ho. exact Ho. Qed.

(** One step, given that what was obtained beforehand is [as_list lib] exactly when an object is created. *)
Lemma ref_step_ok x o lib : sinv (rs x) None -> length (libs x) = length (objs (hp (rs x))) ->
  closed x = run_destructors (libs x) (rev (log (hp (rs x)))) -> pre (rs x) o ->
  exists x', ref_step debug x o lib = Ok x' /\ step debug (rs x) o = Ok (rs x') /\ sinv (rs x') None
    /\ length (libs x') = length (objs (hp (rs x')))
    /\ libs x' = libs x ++ repeat lib (news o)
    /\ opened x' = opened x
    /\ closed x' = run_destructors (libs x') (rev (log (hp (rs x'))))
    /\ closed x' = closed x ++ run_destructors (libs x') (destroyed (rs x) (rs x')).
Proof.
  intros Hi Hl Hc Hp. destruct (step_ok debug (rs x) o Hi Hp) as (s' & E & Hi' & _).
  pose proof (step_grows _ _ _ E) as [[new En] Gl]. unfold ref_step. rewrite E. cbn [bind].
  eexists. split; [reflexivity|]. cbn [rs libs opened closed].
  assert (Ek : length (objs (hp s')) - length (libs x) = news o) by lia. rewrite Ek.
  split; [reflexivity|]. split; [exact Hi'|]. split; [rewrite app_length, repeat_length; lia|]. split; [reflexivity|].
  split; [reflexivity|]. split; [|reflexivity].
  unfold destroyed. rewrite En, app_length. replace (length new + length (log (hp (rs x))) - length (log (hp (rs x)))) with (length new) by lia.
  rewrite firstn_app, Nat.sub_diag, firstn_all. cbn [firstn]. rewrite app_nil_r, rev_app_distr, Hc.
  unfold run_destructors at 3. rewrite flat_map_app. f_equal.
  symmetry. apply run_destructors_ext. intros i Hin. apply in_rev in Hin. apply (sinv_log_created _ Hi) in Hin. lia.
Qed.

Lemma did_open_sound x r : sound x -> sinv (rs (did_open x r)) None /\ length (libs (did_open x r)) = length (objs (hp (rs (did_open x r))))
  /\ closed (did_open x r) = run_destructors (libs (did_open x r)) (rev (log (hp (rs (did_open x r)))))
  /\ opened (did_open x r) = flat_map as_list (libs x) ++ as_list r.
Proof. intros (A & B & C & D). cbn. rewrite C. auto. Qed.

Lemma flat_app_one {A} (ls : list (option A)) r : flat_map as_list (ls ++ [r]) = flat_map as_list ls ++ as_list r.
Proof. rewrite flat_map_app. cbn. now rewrite app_nil_r. Qed.

Lemma ref_plain x o : sound x -> news o = 0 -> pre (rs x) o ->
  exists x', ref_step debug x o None = Ok x' /\ sound x' /\ step debug (rs x) o = Ok (rs x') /\ opened x' = opened x
    /\ libs x' = libs x /\ closed x' = closed x ++ run_destructors (libs x') (destroyed (rs x) (rs x')).
Proof.
  intros (A & B & C & D) Hn Hp. destruct (ref_step_ok x o None A B D Hp) as (x' & E1 & E2 & E3 & E4 & E5 & E6 & E7 & E8).
  exists x'. rewrite Hn in E5. cbn in E5. rewrite app_nil_r in E5. split; [exact E1|]. split; [split; [exact E3|]; split; [exact E4|]; split; [rewrite E6, E5; exact C|exact E7]|]. auto.
Qed.
Lemma ref_new_client x o : sound x -> pre (rs x) o ->
  exists x', ref_step debug x o None = Ok x' /\ sound x' /\ step debug (rs x) o = Ok (rs x') /\ opened x' = opened x
    /\ closed x' = closed x ++ run_destructors (libs x') (destroyed (rs x) (rs x')).
Proof.
  intros (A & B & C & D) Hp. destruct (ref_step_ok x o None A B D Hp) as (x' & E1 & E2 & E3 & E4 & E5 & E6 & E7 & E8).
  exists x'. split; [exact E1|]. split; [|auto]. split; [exact E3|]. split; [exact E4|]. split; [|exact E7].
  rewrite E6, E5, C. rewrite flat_map_app.
  replace (flat_map as_list (repeat (@None handle) (news o))) with (@nil handle); [now rewrite app_nil_r|].
  destruct o; reflexivity.
Qed.
Lemma ref_new_lib x v r : sound x -> unused (rs x) v ->
  exists x', ref_step debug (did_open x r) (CtorNew v 0) r = Ok x' /\ sound x' /\ step debug (rs x) (CtorNew v 0) = Ok (rs x')
    /\ opened x' = opened x ++ as_list r /\ libs x' = libs x ++ [r]
    /\ closed x' = closed x ++ run_destructors (libs x') (destroyed (rs x) (rs x')).
Proof.
  intros Hs Hu. destruct (did_open_sound x r Hs) as (A & B & C & D).
  destruct (ref_step_ok (did_open x r) (CtorNew v 0) r A B C Hu) as (x' & E1 & E2 & E3 & E4 & E5 & E6 & E7 & E8).
  exists x'. cbn [news repeat libs did_open rs opened closed] in *. split; [exact E1|]. split; [|auto].
  split; [exact E3|]. split; [exact E4|]. split; [|exact E7]. rewrite E6, E5. now rewrite flat_app_one, D.
Qed.
End D.

(** ** Open, executed *)
Section O.
Variable debug : bool.
Lemma upd_end {A} (l : list A) x y : upd (l ++ [x]) (length l) y = l ++ [y].
Proof. induction l; cbn; congruence. Qed.
Lemma new_lib_exec os lg vs tmp : nth_error vs tmp = Some None ->
  step debug (State (Heap os lg) vs) (CtorNew tmp 0)
  = Ok (State (Heap (os ++ [Obj 1 Alive []]) lg) (upd vs tmp (Some (VRef (Some (length os)))))).
Proof.
  intros Ht. unfold step, alloc. cbn [hp objs log vars repeat]. unfold new_var. cbn [vars].
  rewrite (slot_get_ok _ _ _ Ht). cbn [bind]. unfold set_var. cbn [vars hp].
  rewrite slot_set_ok by (apply nth_error_Some; congruence). cbn [bind hp vars]. unfold lift, AddRef, obj_AddRef, get_alive.
  cbn [objs]. rewrite (slot_get_ok _ _ (Obj 0 Alive [])) by (rewrite nth_error_app2, Nat.sub_diag; auto). cbn [bind st]. unfold set_obj. cbn [objs log rc flds].
  rewrite upd_end. reflexivity.
Qed.
Lemma al_null_exec h vs v : nth_error vs v = Some None -> step debug (State h vs) (AlNull v) = Ok (State h (upd vs v (Some (VAl None)))).
Proof.
  intros Hv. unfold step, new_var. cbn [vars]. rewrite (slot_get_ok _ _ _ Hv). cbn [bind]. unfold set_var. cbn [vars hp].
  rewrite slot_set_ok by (apply nth_error_Some; congruence). reflexivity.
Qed.
Lemma take_exec h vs v t p : nth_error vs v = Some None -> nth_error vs t = Some (Some (VRef p)) ->
  step debug (State h vs) (Take v (LVar t)) = Ok (State h (upd (upd vs t (Some (VRef None))) v (Some (VAl p)))).
Proof.
  intros Hv Ht. assert (Hne : t <> v) by congruence. unfold step, read, write, get_var. cbn [vars hp].
  rewrite (slot_get_ok _ _ _ Ht). cbn [bind]. unfold set_var. cbn [vars hp].
  rewrite slot_set_ok by (apply nth_error_Some; congruence). cbn [bind]. unfold new_var. cbn [vars].
  rewrite (slot_get_ok _ _ None) by (rewrite nth_error_upd_ne; auto). cbn [bind]. unfold set_var. cbn [vars hp].
  rewrite slot_set_ok by (rewrite upd_length; apply nth_error_Some; congruence). reflexivity.
Qed.
Lemma destroy_null_exec h vs t : nth_error vs t = Some (Some (VRef None)) ->
  step debug (State h vs) (Destroy t) = Ok (State h (upd vs t None)).
Proof.
  intros Ht. unfold step, get_var. cbn [vars]. rewrite (slot_get_ok _ _ _ Ht). cbn [bind]. unfold lift, Release. cbn [hp vars bind].
  unfold set_var. cbn [vars hp]. rewrite slot_set_ok by (apply nth_error_Some; congruence). reflexivity.
Qed.
Lemma destroy_last_exec os lg vs t : nth_error vs t = Some (Some (VRef (Some (length os)))) ->
  step debug (State (Heap (os ++ [Obj 1 Alive []]) lg) vs) (Destroy t)
  = Ok (State (Heap (os ++ [Obj 0 Dead []]) (length os :: lg)) (upd vs t None)).
Proof.
  intros Ht. unfold step, get_var. cbn [vars]. rewrite (slot_get_ok _ _ _ Ht). cbn [bind]. unfold lift, Release. cbn [hp vars obj_Release].
  assert (G : forall ob : obj, slot_get (os ++ [ob]) (length os) = Ok ob)
    by (intros ob; apply slot_get_ok; rewrite nth_error_app2, Nat.sub_diag; auto).
  unfold get_alive. cbn [objs]. rewrite G. cbn [bind st rc flds]. unfold assert_. cbn [Nat.ltb Nat.leb negb]. rewrite andb_false_r.
  cbn [bind rev release_list]. unfold set_obj, finish. cbn [objs log]. rewrite upd_end, G. cbn [bind st]. rewrite upd_end. cbn [bind].
  unfold set_var. cbn [vars hp]. rewrite slot_set_ok by (apply nth_error_Some; congruence). reflexivity.
Qed.

Definition with_var (s s' : state) (v : nat) (x : option var) : Prop :=
  length (vars s') = length (vars s) /\ forall i, nth_error (vars s') i = if i =? v then Some x else nth_error (vars s) i.
Lemma upd3 {A} (vs : list (option A)) v t a b : nth_error vs v = Some None -> nth_error vs t = Some None -> v <> t ->
  let vs' := upd (upd (upd vs t a) v b) t None in
  length vs' = length vs /\ forall i, nth_error vs' i = if i =? v then Some b else nth_error vs i.
Proof.
  intros Hv Ht Hne vs'. unfold vs'. rewrite !upd_length. split; [reflexivity|]. intros i.
  assert (Lt : t < length vs) by (apply nth_error_Some; congruence). assert (Lv : v < length vs) by (apply nth_error_Some; congruence).
  rewrite !nth_error_upd, !upd_length.
  apply Nat.ltb_lt in Lt. apply Nat.ltb_lt in Lv. rewrite Lt, Lv, !andb_true_r.
  destruct (Nat.eqb_spec t i), (Nat.eqb_spec v i), (Nat.eqb_spec i v); subst; try congruence.
Qed.

Definition heap_ext (s s' : state) (ob : obj) (lg : list nat) : Prop :=
  objs (hp s') = objs (hp s) ++ [ob] /\ log (hp s') = lg ++ log (hp s).
Lemma ref_step_exec x o r s' : step debug (rs x) o = Ok s' ->
  ref_step debug x o r = Ok (World s' (libs x ++ repeat r (length (objs (hp s')) - length (libs x))) (opened x)
    (closed x ++ run_destructors (libs x ++ repeat r (length (objs (hp s')) - length (libs x))) (destroyed (rs x) s'))).
Proof. intros H. unfold ref_step. now rewrite H. Qed.

Lemma open_exec x v tmp r : length (libs x) = length (objs (hp (rs x))) -> ev_pre x (Open v tmp r) ->
  exists x', ev_step debug x (Open v tmp r) = Ok x'
    /\ opened x' = opened x ++ as_list r /\ closed x' = closed x /\ libs x' = libs x ++ [r]
    /\ with_var (rs x) (rs x') v (Some (VAl (match r with Some _ => Some (length (objs (hp (rs x)))) | None => None end)))
    /\ match r with
       | Some _ => heap_ext (rs x) (rs x') (Obj 1 Alive []) []
       | None => heap_ext (rs x) (rs x') (Obj 0 Dead []) [length (objs (hp (rs x)))]
       end.
Proof.
  intros Hl (Hv & Ht & Hne). destruct x as [[[os lg] vs] ls op cl]. unfold unused in *. cbn [rs libs hp objs vars opened closed log] in *.
  cbn [ev_step]. unfold did_open. cbn [rs libs opened closed].
  pose proof (new_lib_exec os lg vs tmp Ht) as S1. pose proof (ref_step_exec (World (State (Heap os lg) vs) ls (op ++ as_list r) cl) _ r _ S1) as R1.
  cbn [rs libs opened closed hp objs] in R1. rewrite app_length in R1. cbn [length] in R1.
  replace (length os + 1 - length ls) with 1 in R1 by lia. cbn [repeat] in R1.
  unfold destroyed in R1. cbn [hp log] in R1. rewrite Nat.sub_diag in R1. cbn [firstn rev run_destructors flat_map] in R1. rewrite app_nil_r in R1.
  rewrite R1. cbn [bind].
  assert (Lt : tmp < length vs) by (apply nth_error_Some; congruence). assert (Lv : v < length vs) by (apply nth_error_Some; congruence).
  assert (Hv1 : nth_error (upd vs tmp (Some (VRef (Some (length os))))) v = Some None) by (rewrite nth_error_upd_ne; auto).
  assert (Ht1 : nth_error (upd vs tmp (Some (VRef (Some (length os))))) tmp = Some (Some (VRef (Some (length os))))) by (now rewrite nth_error_upd_eq).
  destruct r as [h|].
  - pose proof (take_exec (Heap (os ++ [Obj 1 Alive []]) lg) _ v tmp _ Hv1 Ht1) as S2.
    pose proof (ref_step_exec (World (State (Heap (os ++ [Obj 1 Alive []]) lg) (upd vs tmp (Some (VRef (Some (length os)))))) (ls ++ [Some h]) (op ++ as_list (Some h)) cl) _ None _ S2) as R2.
    cbn [rs libs opened closed hp objs] in R2. rewrite !app_length in R2. cbn [length] in R2.
    replace (length os + 1 - (length ls + 1)) with 0 in R2 by lia. cbn [repeat] in R2. rewrite !app_nil_r in R2.
    unfold destroyed in R2. cbn [hp log] in R2. rewrite Nat.sub_diag in R2. cbn [firstn rev run_destructors flat_map] in R2. rewrite app_nil_r in R2.
    rewrite R2. cbn [bind].
    set (vs2 := upd (upd (upd vs tmp (Some (VRef (Some (length os))))) tmp (Some (VRef None))) v (Some (VAl (Some (length os))))) in *.
    assert (Ht2 : nth_error vs2 tmp = Some (Some (VRef None))).
    { unfold vs2. rewrite nth_error_upd_ne by auto. rewrite nth_error_upd_eq; [reflexivity|]. now rewrite upd_length. }
    pose proof (destroy_null_exec (Heap (os ++ [Obj 1 Alive []]) lg) vs2 tmp Ht2) as S3.
    pose proof (ref_step_exec (World (State (Heap (os ++ [Obj 1 Alive []]) lg) vs2) (ls ++ [Some h]) (op ++ as_list (Some h)) cl) _ None _ S3) as R3.
    cbn [rs libs opened closed hp objs] in R3. rewrite !app_length in R3. cbn [length] in R3.
    replace (length os + 1 - (length ls + 1)) with 0 in R3 by lia. cbn [repeat] in R3. rewrite !app_nil_r in R3.
    unfold destroyed in R3. cbn [hp log] in R3. rewrite Nat.sub_diag in R3. cbn [firstn rev run_destructors flat_map] in R3. rewrite app_nil_r in R3.
    rewrite R3. eexists. split; [reflexivity|]. cbn [rs libs opened closed hp objs vars log].
    split; [reflexivity|]. split; [reflexivity|]. split; [reflexivity|]. split.
    + unfold with_var. cbn [vars]. unfold vs2.
      assert (Eu : upd (upd vs tmp (Some (VRef (Some (length os))))) tmp (Some (VRef None)) = upd vs tmp (Some (VRef None))).
      { clear. revert tmp. induction vs as [|a vs IH]; intros [|t]; cbn; auto. now rewrite IH. }
      rewrite Eu. exact (upd3 vs v tmp (Some (VRef None)) (Some (VAl (Some (length os)))) Hv Ht Hne).
    + split; reflexivity.
  - pose proof (al_null_exec (Heap (os ++ [Obj 1 Alive []]) lg) _ v Hv1) as S2.
    pose proof (ref_step_exec (World (State (Heap (os ++ [Obj 1 Alive []]) lg) (upd vs tmp (Some (VRef (Some (length os)))))) (ls ++ [None]) (op ++ as_list None) cl) _ None _ S2) as R2.
    cbn [rs libs opened closed hp objs] in R2. rewrite !app_length in R2. cbn [length] in R2.
    replace (length os + 1 - (length ls + 1)) with 0 in R2 by lia. cbn [repeat] in R2. rewrite !app_nil_r in R2.
    unfold destroyed in R2. cbn [hp log] in R2. rewrite Nat.sub_diag in R2. cbn [firstn rev run_destructors flat_map] in R2. rewrite app_nil_r in R2.
    cbn [as_list] in *. rewrite app_nil_r in *. rewrite R2. cbn [bind].
    set (vs2 := upd (upd vs tmp (Some (VRef (Some (length os))))) v (Some (VAl None))) in *.
    assert (Ht2 : nth_error vs2 tmp = Some (Some (VRef (Some (length os))))) by (unfold vs2; rewrite nth_error_upd_ne; auto).
    pose proof (destroy_last_exec os lg vs2 tmp Ht2) as S3.
    pose proof (ref_step_exec (World (State (Heap (os ++ [Obj 1 Alive []]) lg) vs2) (ls ++ [None]) op cl) _ None _ S3) as R3.
    cbn [rs libs opened closed hp objs] in R3. rewrite !app_length in R3. cbn [length] in R3.
    replace (length os + 1 - (length ls + 1)) with 0 in R3 by lia. cbn [repeat] in R3. rewrite !app_nil_r in R3.
    unfold destroyed in R3. cbn [hp log] in R3. cbn [length] in R3. replace (S (length lg) - length lg) with 1 in R3 by lia.
    cbn [firstn rev app run_destructors flat_map] in R3. unfold lib_of in R3. rewrite nth_error_app2 in R3 by lia.
    replace (length os - length ls) with 0 in R3 by lia. cbn [nth_error as_list app] in R3. rewrite app_nil_r in R3.
    rewrite R3. eexists. split; [reflexivity|]. cbn [rs libs opened closed hp objs vars log].
    split; [reflexivity|]. split; [reflexivity|]. split; [reflexivity|]. split.
    + unfold with_var. cbn [vars]. exact (upd3 vs v tmp _ _ Hv Ht Hne).
    + split; reflexivity.
Qed.
End O.

Section H.
Variable debug : bool.
Lemma ev_step_ok x e : sound x -> ev_pre x e ->
  exists x', ev_step debug x e = Ok x' /\ sound x' /\ opened x' = opened x ++ obtained e.
Proof.
  intros Hs Hp. destruct e as [o|v h|v r|v tmp r].
  - destruct (ref_new_client debug x o Hs Hp) as (x' & E & S' & _ & O & _). exists x'. cbn [obtained]. rewrite app_nil_r. auto.
  - destruct (ref_new_lib debug x v (Some h) Hs Hp) as (x' & E & S' & _ & O & _). exists x'. auto.
  - destruct (ref_new_lib debug x v r Hs Hp) as (x' & E & S' & _ & O & _). exists x'. auto.
  - destruct Hp as (Hv & Ht & Hne). destruct (ref_new_lib debug x tmp r Hs Ht) as (x1 & E1 & S1 & P1 & O1 & _).
    cbn [ev_step]. rewrite E1. cbn [bind obtained].
    assert (V1 : vars (rs x1) = upd (vars (rs x)) tmp (Some (VRef (Some (length (objs (hp (rs x)))))))).
    { destruct x as [[[os lg] vs] ls op cl]. cbn [rs hp objs vars] in *. rewrite (new_lib_exec debug os lg vs tmp Ht) in P1.
      injection P1 as <-. reflexivity. }
    assert (Lt : tmp < length (vars (rs x))) by (apply nth_error_Some; unfold unused in Ht; congruence).
    assert (Hv1 : nth_error (vars (rs x1)) v = Some None) by (rewrite V1, nth_error_upd_ne; auto).
    assert (Ht1 : nth_error (vars (rs x1)) tmp = Some (Some (VRef (Some (length (objs (hp (rs x)))))))) by (now rewrite V1, nth_error_upd_eq).
    assert (K1 : kind (rs x1) tmp = Some 0) by (unfold kind; now rewrite Ht1).
    destruct r as [h|].
    + destruct (ref_plain debug x1 (Take v (LVar tmp)) S1 eq_refl) as (x2 & E2 & S2 & P2 & O2 & _); [split; [exact Hv1|exact K1]|].
      rewrite E2. cbn [bind].
      assert (K2 : kind (rs x2) tmp = Some 0).
      { destruct x1 as [[h1 vs1] ls1 op1 cl1]. cbn [rs vars] in *. rewrite (take_exec debug h1 vs1 v tmp _ Hv1 Ht1) in P2. injection P2 as <-.
        unfold kind. cbn [vars]. rewrite nth_error_upd_ne by auto. rewrite nth_error_upd_eq; [reflexivity|]. apply nth_error_Some. congruence. }
      destruct (ref_plain debug x2 (Destroy tmp) S2 eq_refl (or_introl K2)) as (x3 & E3 & S3 & P3 & O3 & _).
      exists x3. split; [exact E3|]. split; [exact S3|]. rewrite O3, O2, O1. reflexivity.
    + destruct (ref_plain debug x1 (AlNull v) S1 eq_refl Hv1) as (x2 & E2 & S2 & P2 & O2 & _). rewrite E2. cbn [bind].
      assert (K2 : kind (rs x2) tmp = Some 0).
      { destruct x1 as [[h1 vs1] ls1 op1 cl1]. cbn [rs vars] in *. rewrite (al_null_exec debug h1 vs1 v Hv1) in P2. injection P2 as <-.
        unfold kind. cbn [vars]. rewrite nth_error_upd_ne by auto. now rewrite Ht1. }
      destruct (ref_plain debug x2 (Destroy tmp) S2 eq_refl (or_introl K2)) as (x3 & E3 & S3 & P3 & O3 & _).
      exists x3. split; [exact E3|]. split; [exact S3|]. rewrite O3, O2, O1. reflexivity.
Qed.
Lemma ev_run_ok : forall es x, sound x -> ev_legal debug x es ->
  exists x', ev_run debug x es = Ok x' /\ sound x' /\ opened x' = opened x ++ flat_map obtained es.
Proof.
  induction es as [|e es IH]; intros x Hs Hl; cbn [ev_run flat_map]; [exists x; rewrite app_nil_r; auto|].
  inversion Hl as [|? ? ? Hp Hr]; subst. destruct (ev_step_ok x e Hs Hp) as (x1 & E & S1 & O1). rewrite E. cbn [bind].
  destruct (IH x1 S1 (Hr _ E)) as (x' & E' & S' & O'). exists x'. split; [exact E'|]. split; [exact S'|]. now rewrite O', O1, app_assoc.
Qed.
Lemma sound0 n : sound (fresh n).
Proof. split; [apply sinv0|]. auto. Qed.
End H.

(** ** Counting *)
Definition owns (ls : list (option handle)) (h : handle) (o : nat) : bool := match lib_of ls o with Some k => k =? h | None => false end.
Lemma count_flat ls h os : count h (run_destructors ls os) = length (filter (owns ls h) os).
Proof.
  unfold count, run_destructors. induction os as [|o os IH]; [reflexivity|]. cbn [flat_map filter]. rewrite count_occ_app, IH.
  unfold owns at 2. destruct (lib_of ls o) as [k|]; cbn [as_list count_occ]; [|reflexivity]. destruct (Nat.eq_dec k h) as [->|E].
  - rewrite Nat.eqb_refl. reflexivity.
  - apply Nat.eqb_neq in E. now rewrite E.
Qed.
Lemma libs_as_run ls : flat_map as_list ls = run_destructors ls (seq 0 (length ls)).
Proof.
  assert (G : forall pre ls, run_destructors (pre ++ ls) (seq (length pre) (length ls)) = flat_map as_list ls).
  { intros pre l. revert pre. induction l as [|x l IH]; intros pre; [reflexivity|]. cbn [length seq flat_map]. unfold run_destructors. cbn [flat_map].
    f_equal.
    - unfold lib_of. rewrite nth_error_app2, Nat.sub_diag by lia. reflexivity.
    - specialize (IH (pre ++ [x])). rewrite app_length in IH. cbn [length] in IH. rewrite <- app_assoc in IH.
      replace (S (length pre)) with (length pre + 1) by lia. exact IH. }
  symmetry. exact (G [] ls).
Qed.
Lemma filter_split {A} (f g : A -> bool) l : length (filter f l) = length (filter (fun x => f x && g x) l) + length (filter (fun x => f x && negb (g x)) l).
Proof. induction l as [|x l IH]; [reflexivity|]. cbn. destruct (f x), (g x); cbn; lia. Qed.
Lemma NoDup_filter' {A} (f : A -> bool) l : NoDup l -> NoDup (filter f l).
Proof. apply NoDup_filter. Qed.

Lemma sound_books x : sound x -> books x.
Proof.
  intros (A & B & C & D). pose proof (sinv_balanced _ A) as Bal. split; [exact Bal|].
  destruct Bal as (B1 & B2 & B3 & B4).
  set (os := objs (hp (rs x))) in *.
  set (live := fun o => match nth_error os o with Some ob => match st ob with Alive => true | _ => false end | None => false end).
  assert (Eo : forall h, owners x h = filter (fun o => owns (libs x) h o && live o) (seq 0 (length os))).
  { intros h. unfold owners. fold os. apply filter_ext. intros o. unfold owns, live. destruct (lib_of (libs x) o), (nth_error os o); try reflexivity; now rewrite andb_false_r. }
  assert (Hlive : forall o, o < length os -> (live o = true <-> 0 < handles (rs x) o) /\ (live o = false <-> In o (log (hp (rs x))))).
  { intros o Ho. destruct (B1 o Ho) as (ob & E & [(G1 & G2 & G3 & G4)|(G1 & G2 & G3)]); unfold live; fold os in E; rewrite E, G2;
      split; split; auto; try discriminate; try lia; intros; try contradiction. }
  split.
  - intros h. rewrite C, libs_as_run, B, D, !count_flat. fold os.
    rewrite (filter_split (owns (libs x) h) live). rewrite <- Eo. rewrite Nat.add_comm. f_equal.
    apply Permutation_length. apply NoDup_Permutation.
    + apply NoDup_filter, seq_NoDup.
    + apply NoDup_filter. now apply NoDup_rev.
    + intros o. rewrite !filter_In, in_seq, andb_true_iff, negb_true_iff, <- in_rev. split.
      * intros ([_ L] & W & V). split; [|exact W]. now apply Hlive.
      * intros (L & W). pose proof (B3 o L) as Lo. split; [split; [lia|exact Lo]|]. split; [exact W|]. now apply Hlive.
  - intros h o. rewrite Eo, filter_In, in_seq, andb_true_iff. unfold owns. split.
    + intros ([_ L] & W & V). destruct (lib_of (libs x) o) as [k|]; [|discriminate]. apply Nat.eqb_eq in W. subst k. split; [reflexivity|]. now apply Hlive.
    + intros (W & V). rewrite W, Nat.eqb_refl. assert (L : o < length os).
      { rewrite <- B. unfold lib_of in W. apply nth_error_Some. destruct (nth_error (libs x) o); congruence. }
      split; [split; [lia|exact L]|]. split; [reflexivity|]. now apply Hlive.
Qed.
