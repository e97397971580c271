From Verif Require Import Base RaiiModel RaiiSpec.

(** * SaveAndSet *)
Section Save.
Variable V : Type.
Lemma srun_app (a b : list (sev V)) s : srun s (a ++ b) = do s <- srun s a; srun s b.
Proof.
  revert s. induction a as [|e a IH]; intros s; cbn [app srun bind]; auto.
  destruct (sstep s e); cbn [bind]; auto.
Qed.

Lemma nested_runs (t : list (sev V)) : nested t -> forall m st,
  exists m', srun (m, st) t = Ok (m', st) /\ effect t m m'.
Proof.
  induction 1 as [|l x|l x body Hb IH|a b Ha IHa Hb IHb]; intros m st.
  - exists m. split; auto. now constructor.
  - cbn. eexists. split; [reflexivity|]. constructor; unfold poke.
    + now rewrite Nat.eqb_refl.
    + intros k Hk. now apply Nat.eqb_neq in Hk as ->.
  - cbn [srun sstep bind]. rewrite srun_app.
    destruct (IH (poke m l x) ((l, m l) :: st)) as (m2 & -> & He). cbn [bind srun sstep].
    eexists. split; [reflexivity|].
    apply e_scope with (m1 := poke m l x) (m2 := m2); auto; unfold poke; rewrite ?Nat.eqb_refl; auto.
    + intros k Hk. now apply Nat.eqb_neq in Hk as ->.
    + intros k Hk. now apply Nat.eqb_neq in Hk as ->.
  - rewrite srun_app. destruct (IHa m st) as (m1 & -> & He1). cbn [bind].
    destruct (IHb m1 st) as (m2 & -> & He2). exists m2. split; auto. eapply e_seq; eauto.
Qed.
End Save.

(** * StackLinked *)
Definition chain (s : lstate) (h : head) : option obj -> list obj -> Prop :=
  fix go p l := match l with
    | [] => p = None
    | o :: l' => p = Some o /\ exists q, objs s o = Some (h, q) /\ go q l'
    end.

Record linv (s : lstate) (m : stacks) : Prop := {
  l_chain : forall h, chain s h (heads s h) (m h);
  l_alive : forall o h q, objs s o = Some (h, q) -> In o (m h);
  l_nodup : forall h, NoDup (m h)
}.

Lemma chain_in s h : forall l p o, chain s h p l -> In o l -> exists q, objs s o = Some (h, q).
Proof.
  induction l as [|x l IH]; intros p o Hc Hin; [destruct Hin|]. destruct Hc as (_ & q & Hq & Hc).
  destruct Hin as [<-|Hin]; eauto.
Qed.
Lemma chain_ext s s' h : forall l p, (forall o, In o l -> objs s o = objs s' o) -> chain s h p l -> chain s' h p l.
Proof.
  induction l as [|x l IH]; intros p He Hc; cbn in *; auto. destruct Hc as (-> & q & Hq & Hc). split; auto.
  exists q. rewrite <- He by auto. split; auto.
Qed.

Lemma linv_init : linv lempty no_stacks.
Proof. split; cbn; intros; auto; try discriminate. constructor. Qed.

Lemma disjoint s m : linv s m -> forall h h' o, In o (m h) -> In o (m h') -> h = h'.
Proof.
  intros Hi h h' o H1 H2. destruct (chain_in _ _ _ _ _ (l_chain _ _ Hi h) H1) as [q Hq].
  destruct (chain_in _ _ _ _ _ (l_chain _ _ Hi h') H2) as [q' Hq']. congruence.
Qed.

Lemma lnew_ok debug s m o h : linv s m -> ~ alive m o ->
  exists s', lstep debug s (LNew o h) = Ok s' /\ linv s' (put_stack m h (o :: m h)).
Proof.
  intros Hi Hn. cbn [lstep]. destruct (objs s o) as [[h' q]|] eqn:E.
  { exfalso. apply Hn. exists h'. eapply l_alive; eauto. }
  eexists. split; [reflexivity|]. split; cbn [heads objs set_head set_obj]; unfold put_stack.
  - intros k. destruct (Nat.eqb_spec k h) as [->|Hk].
    + cbn [chain]. split; auto. exists (heads s h). cbn [objs set_head set_obj]. rewrite Nat.eqb_refl. split; auto.
      apply (chain_ext s); [|apply (l_chain _ _ Hi)]. intros z Hz. cbn [objs set_head set_obj].
      destruct (Nat.eqb_spec z o) as [->|]; auto. exfalso. apply Hn. now exists h.
    + apply (chain_ext s); [|apply (l_chain _ _ Hi)]. intros z Hz. cbn [objs set_head set_obj].
      destruct (Nat.eqb_spec z o) as [->|]; auto. exfalso. apply Hn. now exists k.
  - intros z k q. destruct (Nat.eqb_spec z o) as [->|].
    + intros [= <- <-]. rewrite Nat.eqb_refl. now left.
    + intros Hz. apply (l_alive _ _ Hi) in Hz. destruct (k =? h) eqn:Ek; auto. right.
      apply Nat.eqb_eq in Ek. now subst.
  - intros k. destruct (k =? h); [|apply (l_nodup _ _ Hi)]. constructor; [|apply (l_nodup _ _ Hi)].
    intros Hin. apply Hn. now exists h.
Qed.

Lemma ldel_ok debug s m o h l : linv s m -> m h = o :: l ->
  exists s', lstep debug s (LDelete o) = Ok s' /\ linv s' (put_stack m h l).
Proof.
  intros Hi Hm. pose proof (l_chain _ _ Hi h) as Hc. rewrite Hm in Hc. cbn [chain] in Hc.
  destruct Hc as (Hh & q & Hq & Hc). pose proof (l_nodup _ _ Hi h) as Hnd. rewrite Hm in Hnd.
  inversion Hnd as [|? ? Hno Hnd']; subst.
  cbn [lstep]. rewrite Hq. rewrite Hh. cbn [opt_eqb]. rewrite Nat.eqb_refl. unfold assert_. cbn [negb].
  rewrite andb_false_r. cbn [bind]. eexists. split; [reflexivity|].
  split; cbn [heads objs set_head set_obj]; unfold put_stack.
  - intros k. destruct (Nat.eqb_spec k h) as [->|Hk].
    + apply (chain_ext s); [|exact Hc]. intros z Hz. cbn [objs set_head set_obj].
      destruct (Nat.eqb_spec z o) as [->|]; tauto.
    + apply (chain_ext s); [|apply (l_chain _ _ Hi)]. intros z Hz. cbn [objs set_head set_obj].
      destruct (Nat.eqb_spec z o) as [->|]; auto. exfalso. apply Hk.
      apply (disjoint s m Hi k h o Hz). rewrite Hm. now left.
  - intros z k q'. destruct (Nat.eqb_spec z o) as [->|Hz]; [discriminate|]. intros Hzq.
    pose proof (l_alive _ _ Hi _ _ _ Hzq) as Hin. destruct (Nat.eqb_spec k h) as [->|]; auto.
    rewrite Hm in Hin. destruct Hin; [congruence|auto].
  - intros k. destruct (k =? h); auto. apply (l_nodup _ _ Hi).
Qed.

Lemma scoped_runs debug m t m' : scoped m t m' -> forall s, linv s m ->
  exists s', lrun debug s t = Ok s' /\ linv s' m'.
Proof.
  induction 1 as [m|m o h t m' Hn Hs IH|m o h l t m' Hm Hs IH]; intros s Hi; cbn [lrun].
  - eauto.
  - destruct (lnew_ok debug s m o h Hi Hn) as (s1 & -> & Hi1). cbn [bind]. auto.
  - destruct (ldel_ok debug s m o h l Hi Hm) as (s1 & -> & Hi1). cbn [bind]. auto.
Qed.

Lemma walk_ok s h : forall l p n, chain s h p l -> length l <= n -> walk n s p = Ok l.
Proof.
  induction l as [|o l IH]; intros p n Hc Hn; cbn [chain length] in *.
  - subst. destruct n; reflexivity.
  - destruct Hc as (-> & q & Hq & Hc). destruct n as [|n]; [lia|]. cbn [walk]. rewrite Hq.
    rewrite (IH q n Hc) by lia. reflexivity.
Qed.
Lemma head_ok s m h : linv s m -> heads s h = hd_error (m h).
Proof.
  intros Hi. pose proof (l_chain _ _ Hi h) as Hc. destruct (m h); cbn in *; [auto|tauto].
Qed.

(** Destroying a live object that is not its head's innermost. *)
Lemma ldel_bad s m o h : linv s m -> In o (m h) -> hd_error (m h) <> Some o ->
  lstep true s (LDelete o) = Fault AssertFail.
Proof.
  intros Hi Hin Hne. destruct (chain_in _ _ _ _ _ (l_chain _ _ Hi h) Hin) as [q Hq].
  cbn [lstep]. rewrite Hq, (head_ok _ _ h Hi). destruct (m h) as [|x r]; [destruct Hin|]. cbn [hd_error opt_eqb].
  cbn [hd_error] in Hne. destruct (Nat.eqb_spec x o); [congruence|]. reflexivity.
Qed.

(** In debug builds, whatever runs without the assertion failing is properly nested. *)
Lemma debug_scoped t : forall s m s', linv s m -> lrun true s t = Ok s' -> exists m', scoped m t m'.
Proof.
  induction t as [|e t IH]; intros s m s' Hi Hr.
  - exists m. constructor.
  - cbn [lrun] in Hr. destruct e as [o h|o].
    + assert (Hn : ~ alive m o).
      { intros [k Hk]. destruct (chain_in _ _ _ _ _ (l_chain _ _ Hi k) Hk) as [q Hq].
        cbn [lstep] in Hr. rewrite Hq in Hr. discriminate. }
      destruct (lnew_ok true s m o h Hi Hn) as (s1 & E & Hi1). rewrite E in Hr. cbn [bind] in Hr.
      destruct (IH _ _ _ Hi1 Hr) as [m' Hs]. exists m'. econstructor; eauto.
    + destruct (objs s o) as [[h q]|] eqn:Eo; [|cbn [lstep] in Hr; rewrite Eo in Hr; discriminate].
      pose proof (l_alive _ _ Hi _ _ _ Eo) as Hin.
      destruct (m h) as [|x l] eqn:Em; [destruct Hin|].
      destruct (Nat.eq_dec x o) as [->|Hne].
      * destruct (ldel_ok true s m o h l Hi Em) as (s1 & E & Hi1). rewrite E in Hr. cbn [bind] in Hr.
        destruct (IH _ _ _ Hi1 Hr) as [m' Hs]. exists m'. econstructor; eauto.
      * exfalso. rewrite (ldel_bad s m o h Hi) in Hr; [discriminate|now rewrite Em|].
        rewrite Em. cbn. congruence.
Qed.

(** * ScopeGuard *)
Section Guard.
Variable C : Type.
Definition gagree (s : gstate C) (m : gvals C) : Prop :=
  forall v, match guards s v, m v with
    | None, None => True
    | Some g, Some (Some c) => cancelled g = false /\ callback g = Some c
    | Some g, Some None => cancelled g = true
    | _, _ => False
    end.

Lemma settle_ok n : forall (s : gstate C) c, settle n s (Guard (Some c) false) = Ok (s, Guard (Some c) false).
Proof. induction n as [|n IH]; intros s c; cbn; auto. Qed.

Lemma gstep_ok s m e m' r d : gagree s m -> gmeaning m e = Some (m', r, d) ->
  exists s', gstep s e = Ok s' /\ gagree s' m' /\ log s' = log s ++ r.
Proof.
  intros Ha Hm. destruct e as [v c n|v u|v|v]; cbn [gmeaning gstep] in *.
  - pose proof (Ha v) as Hv. destruct (m v) eqn:E; [discriminate|]. injection Hm as <- <- <-.
    destruct (guards s v); [tauto|]. rewrite settle_ok. cbn [bind]. eexists. split; [reflexivity|].
    split; [|cbn; now rewrite app_nil_r]. intros k. cbn. unfold gput. destruct (k =? v); [cbn; auto|apply Ha].
  - pose proof (Ha v) as Hv. pose proof (Ha u) as Hu.
    destruct (m v) eqn:E; [discriminate|]. destruct (m u) as [x|] eqn:Eu; [|discriminate]. injection Hm as <- <- <-.
    destruct (guards s v) eqn:Gv; [tauto|]. destruct (guards s u) as [g|] eqn:Gu; [|tauto].
    cbn [move_guard]. eexists. split; [reflexivity|]. split; [|cbn; now rewrite app_nil_r].
    intros k. cbn. unfold gput. destruct (k =? u); [reflexivity|]. destruct (k =? v); [|apply Ha].
    destruct x; cbn; auto.
  - pose proof (Ha v) as Hv. destruct (m v) as [[c|]|] eqn:E; [| |discriminate]; injection Hm as <- <- <-;
      (destruct (guards s v) as [g|]; [|tauto]); eexists; (split; [reflexivity|]);
      (split; [|cbn; now rewrite app_nil_r]); intros k; cbn; unfold gput; (destruct (k =? v); [reflexivity|apply Ha]).
  - pose proof (Ha v) as Hv. destruct (m v) as [[c|]|] eqn:E; [| |discriminate]; injection Hm as <- <- <-;
      (destruct (guards s v) as [g|]; [|tauto]); unfold destroy_guard.
    + destruct Hv as [-> ->]. cbn [bind]. eexists. split; [reflexivity|]. split; [|reflexivity].
      intros k. cbn. unfold gput. destruct (k =? v); [exact I|apply Ha].
    + rewrite Hv. cbn [bind]. eexists. split; [reflexivity|]. split; [|cbn; now rewrite app_nil_r].
      intros k. cbn. unfold gput. destruct (k =? v); [exact I|apply Ha].
Qed.

Lemma grun_ok t : forall s m m' r d, gagree s m -> gmeanings m t = Some (m', r, d) ->
  exists s', grun s t = Ok s' /\ gagree s' m' /\ log s' = log s ++ r.
Proof.
  induction t as [|e t IH]; intros s m m' r d Ha Hm; cbn [gmeanings grun] in *.
  - injection Hm as <- <- <-. exists s. split; auto. split; auto. now rewrite app_nil_r.
  - destruct (gmeaning m e) as [[[m1 r1] d1]|] eqn:E1; [|discriminate].
    destruct (gmeanings m1 t) as [[[m2 r2] d2]|] eqn:E2; [|discriminate]. injection Hm as <- <- <-.
    destruct (gstep_ok _ _ _ _ _ _ Ha E1) as (s1 & -> & Ha1 & Hl1). cbn [bind].
    destruct (IH _ _ _ _ _ Ha1 E2) as (s2 & H2 & Ha2 & Hl2). exists s2. split; auto. split; auto.
    rewrite Hl2, Hl1. now rewrite app_assoc.
Qed.

(** Conservation: what was made is run, cancelled or still held - each exactly once.  [held] lists the armed
    callbacks of the given variables. *)
Definition held (m : gvals C) (vs : list gvar) : list C :=
  flat_map (fun v => match m v with Some (Some c) => [c] | _ => [] end) vs.

Definition gvars_of (e : gev C) : list gvar :=
  match e with GMake v _ _ => [v] | GMove v u => [v; u] | GCancel v => [v] | GDestroy v => [v] end.

Lemma held_put_out m vs v x : ~ In v vs -> held (gput m v x) vs = held m vs.
Proof.
  unfold held. induction vs as [|k vs IH]; [reflexivity|]. cbn [In flat_map]. intros Hn. f_equal; [|tauto].
  unfold gput. destruct (Nat.eqb_spec k v) as [->|]; [tauto|reflexivity].
Qed.
Lemma held_split (vs : list gvar) v : In v vs -> NoDup vs -> exists a b, vs = a ++ v :: b /\ ~ In v (a ++ b).
Proof.
  intros Hin Hn. destruct (in_split _ _ Hin) as (a & b & ->). exists a, b. split; auto.
  now apply NoDup_remove_2 in Hn.
Qed.
Lemma held_app m a b : held m (a ++ b) = held m a ++ held m b.
Proof. apply flat_map_app. Qed.
Definition armed (x : option (option C)) : list C := match x with Some (Some c) => [c] | _ => [] end.
Lemma held_put m vs v x : In v vs -> NoDup vs ->
  Permutation (held (gput m v x) vs ++ armed (m v)) (held m vs ++ armed x).
Proof.
  intros Hin Hn. destruct (held_split vs v Hin Hn) as (a & b & -> & Hni). rewrite in_app_iff in Hni.
  rewrite !held_app. cbn [held flat_map]. fold (held (gput m v x) b). fold (held m b).
  rewrite !held_put_out by tauto. unfold gput at 1. rewrite Nat.eqb_refl.
  change (match x with Some (Some c) => [c] | _ => [] end) with (armed x).
  change (match m v with Some (Some c) => [c] | _ => [] end) with (armed (m v)).
  rewrite <- !app_assoc. apply Permutation_app_head.
  etransitivity; [apply Permutation_app_comm|]. rewrite (app_assoc (armed (m v))).
  apply Permutation_app_tail. apply Permutation_app_comm.
Qed.

Lemma gmeaning_conserves vs m e m' r d : gmeaning m e = Some (m', r, d) -> NoDup vs -> incl (gvars_of e) vs ->
  Permutation (made [e] ++ held m vs) (r ++ d ++ held m' vs).
Proof.
  intros Hm Hn Hi. destruct e as [v c n|v u|v|v]; cbn [gmeaning gvars_of made] in *.
  - destruct (m v) eqn:E; [discriminate|]. injection Hm as <- <- <-. cbn [app].
    pose proof (held_put m vs v (Some (Some c)) ltac:(apply Hi; now left) Hn) as P. rewrite E in P.
    cbn [armed] in P. rewrite app_nil_r in P. rewrite P. apply Permutation_cons_append.
  - destruct (m v) eqn:E; [discriminate|]. destruct (m u) as [x|] eqn:Eu; [|discriminate].
    injection Hm as <- <- <-. cbn [app].
    pose proof (held_put m vs v (Some x) ltac:(apply Hi; now left) Hn) as P1. rewrite E in P1. cbn [armed] in P1.
    rewrite app_nil_r in P1.
    pose proof (held_put (gput m v (Some x)) vs u (Some None) ltac:(apply Hi; now right; left) Hn) as P2.
    assert (Hg : gput m v (Some x) u = Some x).
    { unfold gput. destruct (Nat.eqb_spec u v); [congruence|auto]. }
    rewrite Hg in P2. cbn [armed] in P2. rewrite app_nil_r in P2.
    apply (Permutation_app_inv_r (armed (Some x))). cbn [armed] in *. rewrite P2, P1. reflexivity.
  - destruct (m v) as [[c|]|] eqn:E; [| |discriminate]; injection Hm as <- <- <-; cbn [app];
      pose proof (held_put m vs v (Some None) ltac:(apply Hi; now left) Hn) as P; rewrite E in P;
      cbn [armed] in P; rewrite ?app_nil_r in P; rewrite <- P.
    + symmetry. apply Permutation_cons_append.
    + reflexivity.
  - destruct (m v) as [[c|]|] eqn:E; [| |discriminate]; injection Hm as <- <- <-; cbn [app];
      pose proof (held_put m vs v None ltac:(apply Hi; now left) Hn) as P; rewrite E in P;
      cbn [armed] in P; rewrite ?app_nil_r in P; rewrite <- P.
    + symmetry. apply Permutation_cons_append.
    + reflexivity.
Qed.

Lemma made_cons e t : made (e :: t) = made [e] ++ @made C t.
Proof. destruct e; reflexivity. Qed.

Lemma gmeanings_conserves vs t : forall m m' r d, gmeanings m t = Some (m', r, d) -> NoDup vs ->
  incl (flat_map gvars_of t) vs -> Permutation (made t ++ held m vs) (r ++ d ++ held m' vs).
Proof.
  induction t as [|e t IH]; intros m m' r d Hm Hn Hi; cbn [gmeanings flat_map] in *.
  - injection Hm as <- <- <-. reflexivity.
  - destruct (gmeaning m e) as [[[m1 r1] d1]|] eqn:E1; [|discriminate].
    destruct (gmeanings m1 t) as [[[m2 r2] d2]|] eqn:E2; [|discriminate]. injection Hm as <- <- <-.
    pose proof (gmeaning_conserves vs m e m1 r1 d1 E1 Hn) as P1.
    pose proof (IH m1 m2 r2 d2 E2 Hn) as P2.
    assert (incl (gvars_of e) vs) by (intros z Hz; apply Hi, in_or_app; auto).
    assert (incl (flat_map gvars_of t) vs) by (intros z Hz; apply Hi, in_or_app; auto).
    specialize (P1 H). specialize (P2 H0). rewrite made_cons.
    transitivity (made t ++ (made [e] ++ held m vs)).
    { rewrite !app_assoc. apply Permutation_app_tail. apply Permutation_app_comm. }
    rewrite P1. transitivity (r1 ++ d1 ++ (made t ++ held m1 vs)).
    { rewrite !app_assoc. apply Permutation_app_tail. rewrite <- app_assoc. apply Permutation_app_comm. }
    rewrite P2. rewrite <- !app_assoc. apply Permutation_app_head. 
    rewrite !app_assoc. apply Permutation_app_tail. rewrite <- !app_assoc. rewrite Permutation_app_comm.
    rewrite <- app_assoc. apply Permutation_app_head. apply Permutation_app_comm.
Qed.
End Guard.
