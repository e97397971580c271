From Verif Require Import Base PolicyModel PolicySpec.

Definition view (o : object) : option container :=
  match o with OT t => Some (Container (table_pol t) (tblock t)) | OF _ => None end.
(** The ideal store of a store. *)
Definition sim (w : world) (s : env) : Prop :=
  forall v, s v = match objs w v with Some o => view o | None => None end.
Definition no_fixed (w : world) : Prop := forall v f, objs w v <> Some (OF f).
Definition plain (w : world) : Prop := forall v t, objs w v = Some (OT t) -> tkind t = KTable /\ own t = table_pol t.

Definition same_calls (a b : list event) : Prop :=
  filter (fun e => negb (is_query e)) a = filter (fun e => negb (is_query e)) b.

Ltac put_cases x v := destruct (Nat.eqb_spec x v) as [->|]; cbn.

Lemma sim_put w s v t n m (st : nat -> option object) : sim w s -> objs w = st ->
  sim (World (fun x => if Nat.eqb x v then Some (OT t) else st x) n m) (set s v (view (OT t))).
Proof. intros H <- x. unfold set. cbn. put_cases x v; auto. Qed.
Lemma sim_same w s v t n m : sim w s -> s v = view (OT t) ->
  sim (World (fun x => if Nat.eqb x v then Some (OT t) else objs w x) n m) s.
Proof. intros H E x. cbn. put_cases x v; auto. Qed.

Lemma exec_sim w s x w' e : sim w s -> no_fixed w -> on_tables x -> exec w x = Ok (w', e) ->
  no_fixed w' /\ exists e' s', ideal s x e' s' /\ sim w' s' /\ same_calls e' e.
Proof.
  intros Hs Hn Hx E. destruct x as [v k ap|v g|v g|v u|v| | | | | | |v]; try contradiction; cbn in E.
  - destruct (objs w v) as [o|] eqn:Ev; [discriminate|].
    assert (Hv : s v = None) by (rewrite Hs, Ev; reflexivity).
    assert (G : forall d n m, no_fixed (World (fun x => if Nat.eqb x v then Some (OT (TObj k d ap None)) else objs w x) n m) /\
      exists e' s', ideal s (TNew v k ap) e' s' /\
      sim (World (fun x => if Nat.eqb x v then Some (OT (TObj k d ap None)) else objs w x) n m) s' /\ same_calls e' []).
    { intros d n m. split.
      - intros y f. cbn. put_cases y v; [discriminate|apply Hn].
      - exists [], (set s v (Some (Container ap None))). split; [now constructor|]. split; [|reflexivity].
        apply (sim_put w s v (TObj k d ap None) n m); auto. }
    destruct k; cbn in E; injection E as <- <-; cbn [objs blocks made]; apply G.
  - destruct (objs w v) as [[o|]|] eqn:Ev; try discriminate. destruct (tblock o) as [b|] eqn:Eb; [discriminate|].
    assert (Hv : s v = Some (Container (table_pol o) None)) by (rewrite Hs, Ev; cbn; now rewrite Eb).
    unfold table_init, ask in E. destruct g; cbn in E; injection E as <- <-; cbn [objs blocks made].
    + split; [intros y f; cbn; put_cases y v; [discriminate|apply Hn]|].
      eexists _, _. split; [eapply (i_init s v (table_pol o) (blocks w)); exact Hv|]. split; [|reflexivity].
      apply (sim_put w s v (TObj (tkind o) (own o) (table_pol o) (Some (blocks w)))); auto.
    + split; [intros y f; cbn; put_cases y v; [discriminate|apply Hn]|].
      eexists _, _. split; [eapply (i_init_no s v (table_pol o)); exact Hv|]. split; [|reflexivity].
      apply (sim_same w s v (TObj (tkind o) (own o) (table_pol o) None)); auto.
  - destruct (objs w v) as [[o|]|] eqn:Ev; try discriminate. destruct (tblock o) as [b|] eqn:Eb; [|discriminate].
    assert (Hv : s v = Some (Container (table_pol o) (Some b))) by (rewrite Hs, Ev; cbn; now rewrite Eb).
    unfold table_resize, ask in E. destruct g; cbn in E; injection E as <- <-; cbn [objs blocks made].
    + split; [intros y f; cbn; put_cases y v; [discriminate|apply Hn]|].
      eexists _, _. split; [apply (i_resize s v (table_pol o) b (blocks w)); exact Hv|]. split; [|now rewrite Eb].
      apply (sim_put w s v (TObj (tkind o) (own o) (table_pol o) (Some (blocks w)))); auto.
    + split; [intros y f; cbn; put_cases y v; [discriminate|apply Hn]|].
      eexists _, _. split; [apply (i_resize_no s v (table_pol o) b); exact Hv|]. split; [|reflexivity].
      apply (sim_same w s v o); auto. cbn. now rewrite Eb.
  - destruct (objs w v) as [|] eqn:Ev; [discriminate|].
    destruct (objs w u) as [[o|]|] eqn:Eu; try discriminate.
    assert (Hv : s v = None) by (rewrite Hs, Ev; reflexivity).
    assert (Hu : s u = Some (Container (table_pol o) (tblock o))) by (rewrite Hs, Eu; reflexivity).
    assert (G : forall t m, table_pol t = table_pol o -> tblock t = tblock o ->
      let w1 := World (fun x => if Nat.eqb x v then Some (OT t) else
        if Nat.eqb x u then Some (OT (TObj (tkind o) (own o) (table_pol o) None)) else objs w x) (blocks w) m in
      no_fixed w1 /\ exists e' s', ideal s (TMove v u) e' s' /\ sim w1 s' /\ same_calls e' []).
    { intros t m E1 E2. cbv zeta. split.
      - intros y f. cbn. put_cases y v; [discriminate|]. put_cases y u; [discriminate|apply Hn].
      - eexists _, _. split; [eapply i_move; eauto|]. split; [|reflexivity].
        intros y. unfold set. cbn. put_cases y v; [now rewrite E1, E2|]. put_cases y u; auto. }
    unfold table_move in E. destruct (tkind o) eqn:Ek; cbn in E; injection E as <- <-;
      unfold put; cbn [objs blocks made]; apply G; reflexivity.
  - destruct (objs w v) as [[o|]|] eqn:Ev; try discriminate. injection E as <- <-. split; [exact Hn|].
    eexists _, s. split; [eapply i_policy; rewrite Hs, Ev; reflexivity|]. split; [exact Hs|reflexivity].
  - destruct (objs w v) as [[o|f]|] eqn:Ev; try discriminate; [|now destruct (Hn v f)].
    injection E as <- <-. split; [intros y f; cbn; put_cases y v; [discriminate|apply Hn]|].
    eexists _, (set s v None). split; [eapply i_destroy; rewrite Hs, Ev; reflexivity|]. split; [|reflexivity].
    intros y. unfold set. cbn. put_cases y v; auto.
Qed.
Lemma same_calls_app a b c d : same_calls a b -> same_calls c d -> same_calls (a ++ c) (b ++ d).
Proof. unfold same_calls. rewrite !filter_app. congruence. Qed.
Lemma run_sim p : forall w s w' es, sim w s -> no_fixed w -> Forall on_tables p -> exec_all w p = Ok (w', es) ->
  exists es' s', ideals s p es' s' /\ same_calls es' es.
Proof.
  induction p as [|x p IH]; intros w s w' es Hs Hn HF E; cbn in E.
  - injection E as <- <-. exists [], s. split; [constructor|reflexivity].
  - inversion HF; subst. destruct (exec w x) as [[w1 e]|f|] eqn:E1; cbn in E; try discriminate.
    destruct (exec_all w1 p) as [[w2 e2]|f|] eqn:E2; cbn in E; try discriminate. injection E as <- <-.
    destruct (exec_sim _ _ _ _ _ Hs Hn H1 E1) as (Hn1 & e' & s1 & I1 & Hs1 & S1).
    destruct (IH _ _ _ _ Hs1 Hn1 H2 E2) as (es' & s' & I2 & S2).
    exists (e' ++ es'), s'. split; [econstructor; eauto|now apply same_calls_app].
Qed.

(** HashTable alone: allocPolicy() too. *)
Lemma exec_plain w s x w' e : sim w s -> no_fixed w -> plain w -> plain_table x -> exec w x = Ok (w', e) ->
  plain w' /\ forall e' s', ideal s x e' s' -> same_calls e' e -> e' = e.
Proof.
  intros Hs Hn Hp Hx E. destruct x as [v k ap|v g|v g|v u|v| | | | | | |v]; try contradiction; cbn in E.
  - cbn in Hx. subst k. destruct (objs w v) as [o|] eqn:Ev; [discriminate|]. cbn in E. injection E as <- <-. split.
    + intros y t. cbn. put_cases y v; [intros [= <-]; auto|apply Hp].
    + intros e' s' I _. now inversion I.
  - destruct (objs w v) as [[o|]|] eqn:Ev; try discriminate. destruct (tblock o) as [b|] eqn:Eb; [discriminate|].
    destruct (Hp v o Ev) as [K1 K2].
    unfold table_init, ask in E. destruct g; cbn in E; injection E as <- <-.
    all: split; [intros y t; cbn; put_cases y v; [intros [= <-]; auto|apply Hp]|].
    all: intros e' s' I S; inversion I; subst; unfold same_calls in S; cbn in S; congruence.
  - destruct (objs w v) as [[o|]|] eqn:Ev; try discriminate. destruct (tblock o) as [b|] eqn:Eb; [|discriminate].
    destruct (Hp v o Ev) as [K1 K2].
    unfold table_resize, ask in E. destruct g; cbn in E; injection E as <- <-.
    all: split; [intros y t; cbn; put_cases y v; [intros [= <-]; auto|apply Hp]|].
    all: intros e' s' I S; inversion I; subst; unfold same_calls in S; cbn in S; congruence.
  - destruct (objs w v) as [|] eqn:Ev; [discriminate|].
    destruct (objs w u) as [[o|]|] eqn:Eu; try discriminate. destruct (Hp u o Eu) as [K1 K2].
    unfold table_move in E. rewrite K1 in E. cbn in E. injection E as <- <-. split.
    + intros y t. cbn. put_cases y v; [intros [= <-]; auto|]. put_cases y u; [intros [= <-]; auto|apply Hp].
    + intros e' s' I _. now inversion I.
  - destruct (objs w v) as [[o|]|] eqn:Ev; try discriminate. injection E as <- <-. split; [exact Hp|].
    destruct (Hp v o Ev) as [K1 K2]. intros e' s' I _. inversion I as [| | | | | |? ? c Hc|]; subst.
    rewrite Hs, Ev in Hc. injection Hc as <-. cbn. unfold table_policy. now rewrite K2.
  - destruct (objs w v) as [[o|f]|] eqn:Ev; try discriminate; [|now destruct (Hn v f)].
    injection E as <- <-. split; [intros y f; cbn; put_cases y v; [discriminate|apply Hp]|].
    intros e' s' I S. inversion I; subst. unfold same_calls in S; cbn in S.
    exact S.
Qed.
Lemma plain_on x : plain_table x -> on_tables x.
Proof. destruct x; cbn; auto. Qed.
Lemma run_plain p : forall w s w' es, sim w s -> no_fixed w -> plain w -> Forall plain_table p -> exec_all w p = Ok (w', es) ->
  exists s', ideals s p es s'.
Proof.
  induction p as [|x p IH]; intros w s w' es Hs Hn Hp HF E; cbn in E.
  - injection E as <- <-. exists s. constructor.
  - inversion HF; subst. destruct (exec w x) as [[w1 e]|f|] eqn:E1; cbn in E; try discriminate.
    destruct (exec_all w1 p) as [[w2 e2]|f|] eqn:E2; cbn in E; try discriminate. injection E as <- <-.
    destruct (exec_sim _ _ _ _ _ Hs Hn (plain_on _ H1) E1) as (Hn1 & e' & s1 & I1 & Hs1 & S1).
    destruct (exec_plain _ _ _ _ _ Hs Hn Hp H1 E1) as (Hp1 & Heq). rewrite (Heq _ _ I1 S1) in I1.
    destruct (IH _ _ _ _ Hs1 Hn1 Hp1 H2 E2) as (s' & I2).
    exists s'. econstructor; eauto.
Qed.

(** ** Who is asked *)
Definition client_policy (x : stmt) : Prop := match x with TNew _ _ (Made _) => False | _ => True end.
(** Tables ask policies of the client; maps and sets report one of their own. *)
Definition roles (w : world) : Prop := forall v t, objs w v = Some (OT t) ->
  (exists n, table_pol t = Given n) /\ (tkind t <> KTable -> exists n, own t = Made n).
Lemma exec_roles w x w' e : no_fixed w -> roles w -> on_tables x -> client_policy x -> exec w x = Ok (w', e) ->
  roles w' /\ forall p b, In (EMalloc p b) e -> exists n, p = Given n.
Proof.
  intros Hn Hr Hx Hc E. destruct x as [v k ap|v g|v g|v u|v| | | | | | |v]; try contradiction; cbn in E.
  - destruct (objs w v) as [o|] eqn:Ev; [discriminate|]. destruct ap as [n|n]; [|contradiction].
    destruct k; cbn in E; injection E as <- <-; (split; [|contradiction]); intros y t; cbn; put_cases y v;
      try apply Hr; intros [= <-]; cbn; split; eauto; congruence.
  - destruct (objs w v) as [[o|]|] eqn:Ev; try discriminate. destruct (tblock o) as [b|] eqn:Eb; [discriminate|].
    destruct (Hr v o Ev) as [(n & K1) K2].
    unfold table_init, ask in E. destruct g; cbn in E; injection E as <- <-.
    all: split; [intros y t; cbn; put_cases y v; [intros [= <-]; cbn; eauto|apply Hr]|].
    all: intros p b [H|[]]; try discriminate. injection H as <- <-. eauto.
  - destruct (objs w v) as [[o|]|] eqn:Ev; try discriminate. destruct (tblock o) as [b|] eqn:Eb; [|discriminate].
    destruct (Hr v o Ev) as [(n & K1) K2].
    unfold table_resize, ask in E. destruct g; cbn in E; injection E as <- <-.
    all: split; [intros y t; cbn; put_cases y v; [intros [= <-]; cbn; eauto|apply Hr]|].
    + intros p c [H|[H|[]]]; try discriminate. injection H as <- <-. eauto.
    + intros p c [H|[]]; discriminate.
  - destruct (objs w v) as [|] eqn:Ev; [discriminate|].
    destruct (objs w u) as [[o|]|] eqn:Eu; try discriminate. destruct (Hr u o Eu) as [K1 K2].
    unfold table_move in E. destruct (tkind o) eqn:Ek; cbn in E; injection E as <- <-; (split; [|contradiction]);
      intros y t; cbn; put_cases y v; try (put_cases y u); try apply Hr; intros [= <-]; cbn; split; eauto.
    all: congruence.
  - destruct (objs w v) as [[o|]|] eqn:Ev; try discriminate. injection E as <- <-. split; [exact Hr|].
    intros p b [H|[]]; discriminate.
  - destruct (objs w v) as [[o|f]|] eqn:Ev; try discriminate; [|now destruct (Hn v f)].
    injection E as <- <-. split; [intros y t; cbn; put_cases y v; [discriminate|apply Hr]|].
    intros p b [H|[]]; discriminate.
Qed.
Lemma run_roles p : forall w s w' es, sim w s -> no_fixed w -> roles w -> Forall on_tables p -> Forall client_policy p ->
  exec_all w p = Ok (w', es) ->
  roles w' /\ forall q b, In (EMalloc q b) es -> exists n, q = Given n.
Proof.
  induction p as [|x p IH]; intros w s w' es Hs Hn Hr HF HC E; cbn in E.
  - injection E as <- <-. split; [exact Hr|contradiction].
  - inversion HF; inversion HC; subst. destruct (exec w x) as [[w1 e]|f|] eqn:E1; cbn in E; try discriminate.
    destruct (exec_all w1 p) as [[w2 e2]|f|] eqn:E2; cbn in E; try discriminate. injection E as <- <-.
    destruct (exec_sim _ _ _ _ _ Hs Hn H1 E1) as (Hn1 & e' & s1 & I1 & Hs1 & S1).
    destruct (exec_roles _ _ _ _ Hn Hr H1 H5 E1) as (Hr1 & Ha).
    destruct (IH _ _ _ _ Hs1 Hn1 Hr1 H2 H6 E2) as (Hr2 & Hb). split; [exact Hr2|].
    intros q b Hin. apply in_app_or in Hin as [Hin|Hin]; eauto.
Qed.

(** ** Blocks return to where they came from *)
Definition block_of (o : object) : option (pol * nat) :=
  match o with
  | OT t => match tblock t with Some b => Some (table_pol t, b) | None => None end
  | OF f => match fblock f with Some b => Some (fown f, b) | None => None end
  end.
Definition owns (w : world) (v : nat) (x : pol * nat) : Prop :=
  match objs w v with Some o => block_of o = Some x | None => False end.
Record held_ok (w : world) (held : list (pol * nat)) : Prop := {
  ho_in : forall v x, owns w v x -> In x held;
  ho_nd : NoDup (map snd held);
  ho_lt : forall x, In x held -> snd x < blocks w;
  ho_own : forall v u x y, owns w v x -> owns w u y -> snd x = snd y -> v = u
}.
Definition moves_arrays (x : stmt) : Prop := match x with FMove _ _ | FMoveAssign _ _ => True | _ => False end.

Lemma nodup_mid (h1 h2 : list (pol * nat)) p b : NoDup (map snd (h1 ++ (p, b) :: h2)) ->
  NoDup (map snd (h1 ++ h2)) /\ forall x, In x (h1 ++ h2) -> snd x <> b.
Proof.
  rewrite !map_app. cbn. intros H. apply NoDup_remove in H as [H1 H2]. split; [exact H1|].
  intros x Hx E. apply H2. rewrite <- E, <- map_app. now apply in_map.
Qed.
Lemma owns_put_other n m w v u o x : u <> v ->
  owns (World (fun y => if Nat.eqb y v then o else objs w y) n m) u x <-> owns w u x.
Proof. intros H. unfold owns. cbn. destruct (Nat.eqb_spec u v); [contradiction|reflexivity]. Qed.

(** The object of [v] is replaced by one without a block, or with the block it had, or with a new one. *)
Lemma held_drop w held v o x m : held_ok w held -> owns w v x ->
  (forall y, match o with Some o' => block_of o' <> Some y | None => True end) ->
  exists h1 h2, held = h1 ++ x :: h2 /\
    held_ok (World (fun y => if Nat.eqb y v then o else objs w y) (blocks w) m) (h1 ++ h2).
Proof.
  intros H Hx Ho. destruct (in_split _ _ (ho_in _ _ H _ _ Hx)) as (h1 & h2 & ->). exists h1, h2. split; [reflexivity|].
  destruct x as [p b]. destruct (nodup_mid _ _ _ _ (ho_nd _ _ H)) as [N1 N2].
  assert (Hold : forall u y, owns (World (fun z => if Nat.eqb z v then o else objs w z) (blocks w) m) u y -> u <> v /\ owns w u y).
  { intros u y Hy. destruct (Nat.eq_dec u v) as [->|Hne].
    - exfalso. revert Hy. unfold owns. cbn. rewrite Nat.eqb_refl. destruct o as [o'|]; [apply Ho|auto].
    - split; [exact Hne|]. now apply owns_put_other in Hy. }
  constructor; auto.
  - intros u y Hy. apply Hold in Hy as [Hne Hy]. pose proof (ho_in _ _ H _ _ Hy) as Hin.
    rewrite in_app_iff in Hin |- *. cbn in Hin. destruct Hin as [?|[<-|?]]; auto.
    destruct Hne. apply (ho_own _ _ H _ _ _ _ Hy Hx eq_refl).
  - intros y Hy. apply (ho_lt _ _ H). rewrite in_app_iff in *. cbn. tauto.
  - intros u u' y y' Hy Hy'. apply Hold in Hy as [_ Hy]. apply Hold in Hy' as [_ Hy']. apply (ho_own _ _ H _ _ _ _ Hy Hy').
Qed.
Lemma held_none w held v o m : held_ok w held ->
  (forall y, match o with Some o' => block_of o' <> Some y | None => True end) ->
  held_ok (World (fun y => if Nat.eqb y v then o else objs w y) (blocks w) m) held.
Proof.
  intros H Ho.
  assert (Hold : forall u y, owns (World (fun z => if Nat.eqb z v then o else objs w z) (blocks w) m) u y -> owns w u y).
  { intros u y Hy. destruct (Nat.eq_dec u v) as [->|Hne].
    - exfalso. revert Hy. unfold owns. cbn. rewrite Nat.eqb_refl. destruct o as [o'|]; [apply Ho|auto].
    - now apply owns_put_other in Hy. }
  constructor.
  - intros u y Hy. apply (ho_in _ _ H u). auto.
  - apply H.
  - apply (ho_lt _ _ H).
  - intros u u' y y' Hy Hy'. apply (ho_own _ _ H _ _ _ _ (Hold _ _ Hy) (Hold _ _ Hy')).
Qed.
Lemma held_same w held v o o' m : held_ok w held -> objs w v = Some o -> block_of o' = block_of o ->
  held_ok (World (fun y => if Nat.eqb y v then Some o' else objs w y) (blocks w) m) held.
Proof.
  intros H Ev Eb.
  assert (Hold : forall u y, owns (World (fun z => if Nat.eqb z v then Some o' else objs w z) (blocks w) m) u y -> owns w u y).
  { intros u y. destruct (Nat.eq_dec u v) as [->|Hne].
    - unfold owns. cbn. rewrite Nat.eqb_refl, Ev, Eb. auto.
    - now rewrite owns_put_other. }
  constructor.
  - intros u y Hy. apply (ho_in _ _ H u). auto.
  - apply H.
  - apply (ho_lt _ _ H).
  - intros u u' y y' Hy Hy'. apply (ho_own _ _ H _ _ _ _ (Hold _ _ Hy) (Hold _ _ Hy')).
Qed.
(** A block handed out, to be owned by [v], which owns nothing. *)
Lemma held_new w held v o p m : held_ok w held -> (forall y, ~ owns w v y) -> block_of o = Some (p, blocks w) ->
  ~ In (blocks w) (map snd held) /\
  held_ok (World (fun y => if Nat.eqb y v then Some o else objs w y) (S (blocks w)) m) ((p, blocks w) :: held).
Proof.
  intros H Hv Eb.
  assert (Hf : ~ In (blocks w) (map snd held)).
  { intros Hin. apply in_map_iff in Hin as (y & E & Hy). apply (ho_lt _ _ H) in Hy. lia. }
  split; [exact Hf|].
  assert (Hold : forall u y, owns (World (fun z => if Nat.eqb z v then Some o else objs w z) (S (blocks w)) m) u y ->
    (u = v /\ y = (p, blocks w)) \/ (u <> v /\ owns w u y)).
  { intros u y. destruct (Nat.eq_dec u v) as [->|Hne].
    - unfold owns. cbn. rewrite Nat.eqb_refl, Eb. intros [= <-]. auto.
    - rewrite owns_put_other by exact Hne. auto. }
  constructor.
  - intros u y Hy. apply Hold in Hy as [[_ ->]|[_ Hy]]; [now left|right; now apply (ho_in _ _ H u)].
  - cbn. constructor; [exact Hf|apply H].
  - intros y [<-|Hy]; [cbn; lia|]. apply (ho_lt _ _ H) in Hy. cbn. lia.
  - intros u u' y y' Hy Hy' E. apply Hold in Hy as [[-> ->]|[Hn Hy]]; apply Hold in Hy' as [[-> ->]|[Hn' Hy2]]; auto.
    + apply (ho_in _ _ H) in Hy2. apply (ho_lt _ _ H) in Hy2. cbn in E. lia.
    + apply (ho_in _ _ H) in Hy. apply (ho_lt _ _ H) in Hy. cbn in E. lia.
    + apply (ho_own _ _ H _ _ _ _ Hy Hy2 E).
Qed.

Lemma not_owns w v o : objs w v = o -> (match o with Some o' => block_of o' = None | None => True end) -> forall y, ~ owns w v y.
Proof. intros <- H y Hy. revert H. unfold owns in Hy. destruct (objs w v); [congruence|contradiction]. Qed.

(** A move of a table. *)
Lemma held_move w held v u o l n m : held_ok w held -> objs w u = Some o -> objs w v = None -> v <> u ->
  block_of n = block_of o -> block_of l = None ->
  held_ok (World (fun y => if Nat.eqb y v then Some n else if Nat.eqb y u then Some l else objs w y) (blocks w) m) held.
Proof.
  intros H Eu Ev Hne En El.
  assert (Hold : forall x y, owns (World (fun y => if Nat.eqb y v then Some n else if Nat.eqb y u then Some l else objs w y) (blocks w) m) x y ->
    x <> u /\ owns w (if Nat.eqb x v then u else x) y).
  { intros x y. unfold owns. cbn. destruct (Nat.eqb_spec x v) as [->|Hxv].
    - rewrite Eu, En. auto.
    - destruct (Nat.eqb_spec x u) as [->|Hxu]; [rewrite El; discriminate|]. auto. }
  constructor.
  - intros x y Hy. apply Hold in Hy as [_ Hy]. now apply (ho_in _ _ H) in Hy.
  - apply H.
  - apply (ho_lt _ _ H).
  - intros x x' y y' Hy Hy' E. apply Hold in Hy as [Nx Hy]. apply Hold in Hy' as [Nx' Hy2].
    pose proof (ho_own _ _ H _ _ _ _ Hy Hy2 E) as E2.
    destruct (Nat.eqb_spec x v), (Nat.eqb_spec x' v); congruence.
Qed.

Lemma exec_balanced w x w' e held : held_ok w held -> ~ moves_arrays x -> exec w x = Ok (w', e) ->
  forall rest, (forall held', held_ok w' held' -> balanced held' rest) -> balanced held (e ++ rest).
Proof.
  intros H Hx E rest Hr. destruct x as [v k ap|v g|v g|v u|v|v n ap g|v|v u g|v u|v u g|v u|v]; cbn in E;
    try (now destruct Hx).
  - destruct (objs w v) as [o|] eqn:Ev; [discriminate|]. cbn [app].
    destruct k; cbn in E; injection E as <- <-; cbn [app]; apply Hr; unfold put; cbn [objs blocks made];
      (apply held_none; [exact H|cbn; discriminate]).
  - destruct (objs w v) as [[o|]|] eqn:Ev; try discriminate. destruct (tblock o) as [b|] eqn:Eb; [discriminate|].
    unfold table_init, ask in E. destruct g; cbn in E; injection E as <- <-; cbn [app balanced].
    + destruct (held_new w held v (OT (TObj (tkind o) (own o) (table_pol o) (Some (blocks w)))) (table_pol o) (made w) H) as [F G];
        [eapply not_owns; [exact Ev|cbn; now rewrite Eb]|reflexivity|].
      split; [exact F|]. apply Hr, G.
    + apply Hr. unfold put; cbn [objs blocks made]. apply held_none; [exact H|cbn; discriminate].
  - destruct (objs w v) as [[o|]|] eqn:Ev; try discriminate. destruct (tblock o) as [b|] eqn:Eb; [|discriminate].
    unfold table_resize, ask in E. destruct g; cbn in E; injection E as <- <-; cbn [app balanced].
    + assert (Ho : owns w v (table_pol o, b)) by (unfold owns; rewrite Ev; cbn; now rewrite Eb).
      destruct (held_drop w held v None (table_pol o, b) (made w) H Ho) as (h1 & h2 & -> & G1); [auto|].
      destruct (held_new _ (h1 ++ h2) v (OT (TObj (tkind o) (own o) (table_pol o) (Some (blocks w)))) (table_pol o) (made w) G1) as [F G];
        [eapply not_owns; [cbn; now rewrite Nat.eqb_refl|exact I]|reflexivity|].
      cbn [blocks] in *. split.
      { intros Hin. rewrite map_app in Hin. apply in_app_or in Hin as [Hin|[Hin|Hin]].
        - apply F. rewrite map_app. apply in_or_app. auto.
        - cbn in Hin. subst b. apply (ho_in _ _ H) in Ho. apply (ho_lt _ _ H) in Ho. cbn in Ho. lia.
        - apply F. rewrite map_app. apply in_or_app. auto. }
      rewrite Eb. exists ((table_pol o, blocks w) :: h1), h2. split; [reflexivity|]. apply Hr. cbn [app].
      constructor.
      * intros z y Hy. apply (ho_in _ _ G z). revert Hy. unfold owns. cbn. destruct (Nat.eqb z v); auto.
      * apply G.
      * apply (ho_lt _ _ G).
      * intros z z' y y' Hy Hy'. apply (ho_own _ _ G); unfold owns in *; cbn in *.
        -- destruct (Nat.eqb z v); auto.
        -- destruct (Nat.eqb z' v); auto.
    + apply Hr. eapply held_same; [exact H|exact Ev|reflexivity].
  - destruct (objs w v) as [|] eqn:Ev; [discriminate|].
    destruct (objs w u) as [[o|]|] eqn:Eu; try discriminate.
    assert (Hne : v <> u) by congruence.
    unfold table_move in E. destruct (tkind o) eqn:Ek; cbn in E; injection E as <- <-; cbn [app]; apply Hr;
      unfold put; cbn [objs blocks made]; (eapply held_move; [exact H|exact Eu|exact Ev|exact Hne|reflexivity|reflexivity]).
  - destruct (objs w v) as [[o|]|] eqn:Ev; try discriminate. injection E as <- <-. cbn. auto.
  - destruct (objs w v) as [|] eqn:Ev; [discriminate|]. unfold f_ctor, f_allocate, ask in E.
    destruct g; cbn in E; injection E as <- <-; unfold put; cbn [app balanced objs blocks made].
    + destruct (held_new w held v (OF (FObj (Made (made w)) n (Some (blocks w)))) (Made (made w)) (S (made w)) H) as [F G];
        [eapply not_owns; [exact Ev|exact I]|reflexivity|].
      split; [exact F|]. apply Hr, G.
    + apply Hr. unfold put; cbn [objs blocks made]. apply held_none; [exact H|cbn; discriminate].
  - destruct (objs w v) as [|] eqn:Ev; [discriminate|]. cbn in E. injection E as <- <-. cbn [app]. apply Hr.
    unfold put; cbn [objs blocks made]. apply held_none; [exact H|cbn; discriminate].
  - destruct (objs w v) as [|] eqn:Ev; [discriminate|]. destruct (objs w u) as [[|x]|] eqn:Eu; try discriminate.
    unfold f_ctor, f_allocate, ask in E. destruct g; cbn in E; injection E as <- <-; unfold put; cbn [app balanced objs blocks made].
    + destruct (held_new w held v (OF (FObj (Made (made w)) (fsize x) (Some (blocks w)))) (Made (made w)) (S (made w)) H) as [F G];
        [eapply not_owns; [exact Ev|exact I]|reflexivity|].
      split; [exact F|]. apply Hr, G.
    + apply Hr. unfold put; cbn [objs blocks made]. apply held_none; [exact H|cbn; discriminate].
  - destruct (objs w v) as [[|o]|] eqn:Ev; try discriminate. destruct (objs w u) as [[|x]|] eqn:Eu; try discriminate.
    unfold f_assign, f_allocate, ask in E. destruct (Nat.eqb (fsize o) (fsize x)) eqn:Es.
    { cbn in E. injection E as <- <-. cbn [app]. apply Hr. eapply held_same; [exact H|exact Ev|reflexivity]. }
    assert (Hmid : forall held1, held_ok (World (fun y => if Nat.eqb y v then None else objs w y) (blocks w) (made w)) held1 ->
      balanced held1 ((if g then [EMalloc (fown o) (blocks w)] else [ERefused (fown o)]) ++ rest)).
    { intros held1 H1. destruct g; cbn in E; injection E as <- <-; cbn [app balanced].
      - destruct (held_new _ held1 v (OF (FObj (fown o) (fsize x) (Some (blocks w)))) (fown o) (made w) H1) as [F G];
          [eapply not_owns; [cbn; now rewrite Nat.eqb_refl|exact I]|reflexivity|].
        split; [exact F|]. apply Hr.
        constructor.
        * intros z y Hy. apply (ho_in _ _ G z). revert Hy. unfold owns. cbn. destruct (Nat.eqb z v); auto.
        * apply G.
        * apply (ho_lt _ _ G).
        * intros z z' y y' Hy Hy'. apply (ho_own _ _ G); unfold owns in *; cbn in *.
          -- destruct (Nat.eqb z v); auto.
          -- destruct (Nat.eqb z' v); auto.
      - apply Hr.
        pose proof (held_none _ held1 v (Some (OF (FObj (fown o) (fsize x) None))) (made w) H1 ltac:(cbn; discriminate)) as G.
        constructor.
        * intros z y Hy. apply (ho_in _ _ G z). revert Hy. unfold owns. cbn. destruct (Nat.eqb z v); auto.
        * apply G.
        * apply (ho_lt _ _ G).
        * intros z z' y y' Hy Hy'. apply (ho_own _ _ G); unfold owns in *; cbn in *.
          -- destruct (Nat.eqb z v); auto.
          -- destruct (Nat.eqb z' v); auto. }
    replace e with (EFree (fown o) (fblock o) :: (if g then [EMalloc (fown o) (blocks w)] else [ERefused (fown o)]))
      by (destruct g; cbn in E; injection E as <- <-; reflexivity).
    cbn [app balanced]. destruct (fblock o) as [b|] eqn:Eb.
    + assert (Ho : owns w v (fown o, b)) by (unfold owns; rewrite Ev; cbn; now rewrite Eb).
      destruct (held_drop w held v None (fown o, b) (made w) H Ho) as (h1 & h2 & -> & G1); [auto|].
      exists h1, h2. split; [reflexivity|]. apply Hmid, G1.
    + apply Hmid. apply held_none; auto.
  - destruct (objs w v) as [[o|o]|] eqn:Ev; try discriminate; injection E as <- <-; cbn [app balanced table_dtor f_dtor].
    + destruct (tblock o) as [b|] eqn:Eb.
      * assert (Ho : owns w v (table_pol o, b)) by (unfold owns; rewrite Ev; cbn; now rewrite Eb).
        destruct (held_drop w held v None (table_pol o, b) (made w) H Ho) as (h1 & h2 & -> & G1); [auto|].
        exists h1, h2. split; [reflexivity|]. apply Hr, G1.
      * apply Hr. apply held_none; auto.
    + destruct (fblock o) as [b|] eqn:Eb.
      * assert (Ho : owns w v (fown o, b)) by (unfold owns; rewrite Ev; cbn; now rewrite Eb).
        destruct (held_drop w held v None (fown o, b) (made w) H Ho) as (h1 & h2 & -> & G1); [auto|].
        exists h1, h2. split; [reflexivity|]. apply Hr, G1.
      * apply Hr. apply held_none; auto.
Qed.
Lemma run_balanced p : forall w w' es held, held_ok w held -> Forall (fun x => ~ moves_arrays x) p ->
  exec_all w p = Ok (w', es) -> balanced held es.
Proof.
  induction p as [|x p IH]; intros w w' es held H HF E; cbn in E.
  - injection E as <- <-. exact I.
  - inversion HF; subst. destruct (exec w x) as [[w1 e]|f|] eqn:E1; cbn in E; try discriminate.
    destruct (exec_all w1 p) as [[w2 e2]|f|] eqn:E2; cbn in E; try discriminate. injection E as <- <-.
    eapply exec_balanced; eauto.
Qed.
Lemma start_held : held_ok start [].
Proof.
  constructor; cbn; try constructor; try contradiction.
Qed.

Lemma fixed_made w v n ap g w' es : exec w (FNew v n ap g) = Ok (w', es) ->
  forall p b, In (EMalloc p b) es -> exists k, p = Made k.
Proof.
  cbn. destruct (objs w v); [discriminate|]. unfold f_ctor, f_allocate, ask.
  destruct g; cbn; intros [= <- <-] p b [H|[]]; try discriminate. injection H as <- <-. eauto.
Qed.
