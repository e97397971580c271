(** The observer is invisible; more fuel changes no result; layered programs are never stopped by the observer. *)
From Verif Require Import Base ReenterModel ReenterSpec ReenterProofs ReenterStep.

(** ** Runs that agree unless the first one ends in [bad] *)
Section Agree.
Variable bad : forall A, outcome A.
Hypothesis bad_bind : forall A B (f : A -> outcome B), bind (bad A) f = bad B.
Definition agree {A} (r r' : outcome A) : Prop := r = bad A \/ r = r'.
Lemma agree_refl {A} (r : outcome A) : agree r r.
Proof. now right. Qed.
Lemma agree_bind {A B} (r r' : outcome A) (f f' : A -> outcome B) :
  agree r r' -> (forall a, agree (f a) (f' a)) -> agree (bind r f) (bind r' f').
Proof. intros [->| ->] H; [left; apply bad_bind|]. destruct r'; cbn; [apply H|now right|now right]. Qed.

Variables (debug : bool) (wrap : nat) (script : nat -> list cmd) (chk chk' : bool).
Hypothesis touch_agree : forall c l, agree (touch chk c l) (touch chk' c l).
Hypothesis pinned_agree : forall c q, agree (pinned chk c q) (pinned chk' c q).
Lemma copies_agree c : forall ms s, agree (copies chk c s ms) (copies chk' c s ms).
Proof.
  induction ms as [|m ms IH]; intros s; cbn [copies]; [apply agree_refl|].
  apply agree_bind; [apply agree_refl|intros l]. apply agree_bind; [apply touch_agree|intros _].
  apply agree_bind; [apply agree_refl|intros q]. apply agree_bind; [apply agree_refl|intros s1].
  apply agree_bind; [apply IH|intros [s2 qs]]. apply agree_refl.
Qed.
Section G.
Variables (E E' : ctx -> world -> list cmd -> outcome world) (R R' : ctx -> world -> nat -> outcome world).
Hypothesis HE : forall c s ks, agree (E c s ks) (E' c s ks).
Hypothesis HR : forall c s o, agree (R c s o) (R' c s o).
Lemma relp_agree c s q : agree (relp R c s q) (relp R' c s q).
Proof. destruct q; cbn; [apply HR|apply agree_refl]. Qed.
Lemma old_agree c s l : agree (release_old chk R c s l) (release_old chk' R' c s l).
Proof.
  unfold release_old. apply agree_bind; [apply touch_agree|intros _]. apply agree_bind; [apply agree_refl|intros p]. apply relp_agree.
Qed.
Lemma ca_agree c s l m : agree (copy_assign chk R c s l m) (copy_assign chk' R' c s l m).
Proof.
  unfold copy_assign. apply agree_bind; [apply old_agree|intros s1]. apply agree_bind; [apply touch_agree|intros _].
  apply agree_bind; [apply agree_refl|intros q]. apply agree_refl.
Qed.
Lemma step_agree c s k : agree (step chk E R c s k) (step chk' E' R' c s k).
Proof.
  destruct k as [l|l k ms|l m|l m|l m|m body|v j m]; cbn [step].
  - apply agree_bind; [apply agree_refl|intros l']. apply agree_bind; [apply old_agree|intros s1]. apply agree_refl.
  - apply agree_bind; [apply copies_agree|intros [s1 qs]]. cbv zeta. apply agree_bind; [apply agree_refl|intros l'].
    apply agree_bind; [apply old_agree|intros s2]. apply agree_refl.
  - apply agree_bind; [apply agree_refl|intros l']. apply agree_bind; [apply agree_refl|intros m']. apply ca_agree.
  - apply agree_bind; [apply agree_refl|intros m']. apply agree_bind; [apply touch_agree|intros _].
    apply agree_bind; [apply agree_refl|intros q]. apply agree_bind; [apply pinned_agree|intros _].
    apply agree_bind; [apply agree_refl|intros l']. apply agree_bind; [apply old_agree|intros s1]. apply agree_refl.
  - apply agree_bind; [apply agree_refl|intros l']. apply agree_bind; [apply agree_refl|intros m'].
    apply agree_bind; [apply old_agree|intros s1]. apply agree_bind; [apply touch_agree|intros _]. apply agree_refl.
  - apply agree_bind; [apply agree_refl|intros m']. apply agree_bind; [apply touch_agree|intros _].
    apply agree_bind; [apply agree_refl|intros q]. apply agree_bind; [apply agree_refl|intros s1].
    apply agree_bind; [apply HE|intros s2]. apply relp_agree.
  - apply agree_bind; [apply agree_refl|intros m']. apply agree_bind; [apply touch_agree|intros _].
    apply agree_bind; [apply agree_refl|intros [o|]]; [|apply agree_refl]. apply agree_bind; [apply pinned_agree|intros _]. apply ca_agree.
Qed.
Lemma drop_agree c : forall qs s, agree (drop_members R c s qs) (drop_members R' c s qs).
Proof. induction qs as [|q qs IH]; intros s; cbn [drop_members]; [apply agree_refl|]. apply agree_bind; [apply relp_agree|intros; apply IH]. Qed.
Lemma release_agree c s o : agree (release debug wrap script E R c s o) (release debug wrap script E' R' c s o).
Proof.
  assert (Hd : forall s, agree (destroy script E R c s o) (destroy script E' R' c s o)).
  { intros s0. unfold destroy. apply agree_bind; [apply agree_refl|intros ob]. destruct (st ob); try apply agree_refl.
    apply agree_bind; [apply HE|intros s1]. apply agree_bind; [apply agree_refl|intros ob1]. apply agree_bind; [apply drop_agree|intros s2]. apply agree_refl. }
  unfold release. apply agree_bind; [apply agree_refl|intros ob]. destruct (st ob); try apply agree_refl;
    (apply agree_bind; [apply agree_refl|intros _]; cbv zeta; destruct (_ =? 0); [apply Hd|apply agree_refl]).
Qed.
End G.
End Agree.

Lemma observer_agree debug wrap script : forall f,
  (forall c s ks, agree (fun A => Fault BadArg) (exec debug wrap true script f c s ks) (exec debug wrap false script f c s ks)) /\
  (forall c s o, agree (fun A => Fault BadArg) (rel debug wrap true script f c s o) (rel debug wrap false script f c s o)).
Proof.
  assert (Ht : forall c l, agree (fun A => Fault BadArg) (touch true c l) (touch false c l)).
  { intros c l. unfold touch. cbn [andb]. destruct (existsb _ _); [now left|now right]. }
  assert (Hp : forall c q, agree (fun A => Fault BadArg) (pinned true c q) (pinned false c q)).
  { intros c q. unfold pinned. cbn [andb]. destruct (negb _); [now left|now right]. }
  induction f as [|f [IHe IHr]]; [split; intros; now right|]. split.
  - intros c s [|k ks]; cbn [exec]; [now right|]. apply agree_bind; [reflexivity|now apply step_agree|intros s1; apply IHe].
  - intros c s o. cbn [rel]. now apply release_agree.
Qed.
Lemma fuel_agree debug wrap chk script : forall f f', f <= f' ->
  (forall c s ks, agree (fun A => Diverge) (exec debug wrap chk script f c s ks) (exec debug wrap chk script f' c s ks)) /\
  (forall c s o, agree (fun A => Diverge) (rel debug wrap chk script f c s o) (rel debug wrap chk script f' c s o)).
Proof.
  induction f as [|f IH]; intros f' Hf; [split; intros; now left|]. destruct f' as [|f']; [lia|]. destruct (IH f' ltac:(lia)) as [IHe IHr]. split.
  - intros c s [|k ks]; cbn [exec]; [now right|].
    apply agree_bind; [reflexivity|apply step_agree; auto; intros; apply agree_refl|intros s1; apply IHe].
  - intros c s o. cbn [rel]. apply release_agree; auto.
Qed.

(** ** Layered programs *)
Definition postL {A} (r : outcome A) (P : A -> Prop) : Prop := match r with Ok a => P a | Diverge => True | Fault _ => False end.
Lemma postL_bind {A B} (r : outcome A) (f : A -> outcome B) P Q : postL r P -> (forall a, P a -> postL (f a) Q) -> postL (bind r f) Q.
Proof. destruct r as [a|e|]; cbn; intros H HF; auto. Qed.
Lemma postL_weaken {A} (r : outcome A) (P Q : A -> Prop) : postL r P -> (forall a, P a -> Q a) -> postL r Q.
Proof. destruct r as [a|e|]; cbn; intros H HF; auto. Qed.

Definition clsof (s : world) (o : nat) : option nat := option_map cls (nth_error (objs s) o).
Definition cext (s s' : world) : Prop := forall o k, clsof s o = Some k -> clsof s' o = Some k.
Lemma cext_refl s : cext s s.
Proof. intros o k H; exact H. Qed.
Lemma cext_trans a b c : cext a b -> cext b c -> cext a c.
Proof. intros H1 H2 o k H. auto. Qed.

Section L.
Variables ng nm : nat.
Variables (rank glev : nat -> nat) (mlev : nat -> nat -> nat).
Notation inv := (inv ng nm).
Notation sloc := (sloc ng nm).
Notation good := good.
Notation layered_cmd := (layered_cmd rank glev mlev).
Notation allowed := (allowed rank glev).
Notation lev := (lev glev mlev).

(** [q] is null or an object of rank at most [n]. *)
Definition hasL (s : world) (q : option nat) (n : nat) : Prop :=
  match q with None => True | Some o => exists k, clsof s o = Some k /\ rank k <= n end.
Lemma hasL_ext s s' q n : cext s s' -> hasL s q n -> hasL s' q n.
Proof. intros X. destruct q as [o|]; cbn; [|auto]. intros (k & Hk & L). exists k. split; [now apply X|exact L]. Qed.
Lemma hasL_le s q n n' : n <= n' -> hasL s q n -> hasL s q n'.
Proof. intros X. destruct q as [o|]; cbn; [|auto]. intros (k & Hk & L). exists k. split; [auto|lia]. Qed.
(** Level of a RefPtr. *)
Definition llev (s : world) (l : loc) : nat :=
  match l with LG v => glev v | LM o j => match clsof s o with Some k => mlev k j | None => 0 end end.
Definition wt (s : world) : Prop := forall l q, read s l = Ok q -> hasL s q (llev s l).
(** Members of objects being torn down are typed too. *)
Definition wtm (s : world) : Prop := forall o ob j q, nth_error (objs s) o = Some ob -> nth_error (mem ob) j = Some q -> hasL s q (mlev (cls ob) j).
Definition wtg (s : world) : Prop := forall v q, nth_error (globs s) v = Some q -> hasL s q (glev v).
Definition typed (s : world) : Prop := wtm s /\ wtg s.
Lemma typed_read s l q : typed s -> read s l = Ok q -> hasL s q (llev s l).
Proof.
  intros [Tm Tg]. destruct l as [v|o j]; cbn [read llev].
  - intros H. apply Tg. now apply slot_get_inv.
  - destruct (slot_get (objs s) o) as [ob| |] eqn:Eo; cbn [bind]; try discriminate. apply slot_get_inv in Eo. unfold clsof. rewrite Eo. cbn [option_map].
    intros H. eapply Tm; [exact Eo|]. destruct (st ob); try discriminate; now apply slot_get_inv.
Qed.
Lemma clsof_set s o ob ob' y : nth_error (objs s) o = Some ob -> cls ob' = cls ob -> clsof (set_obj s o ob') y = clsof s y.
Proof.
  intros Ho Hc. unfold clsof. rewrite set_nth by (eapply nth_lt; eauto). destruct (Nat.eqb_spec o y) as [<-|]; [|reflexivity]. rewrite Ho. cbn. congruence.
Qed.
Lemma cext_eq s s' : (forall y, clsof s' y = clsof s y) -> cext s s'.
Proof. intros H o k. now rewrite H. Qed.
Lemma typed_set s o ob r z : nth_error (objs s) o = Some ob -> typed s ->
  typed (set_obj s o (Obj r z (cls ob) (mem ob))) /\ cext s (set_obj s o (Obj r z (cls ob) (mem ob))).
Proof.
  intros Ho [Tm Tg]. set (ob' := Obj r z (cls ob) (mem ob)). assert (X : cext s (set_obj s o ob')) by (apply cext_eq; intros; now apply clsof_set with (ob := ob)).
  split; [|exact X]. split.
  - intros y b j q Hy Hj. rewrite set_nth in Hy by (eapply nth_lt; eauto). eapply hasL_ext; [exact X|].
    destruct (Nat.eqb_spec o y) as [<-|]; [injection Hy as <-; exact (Tm o ob j q Ho Hj)|exact (Tm y b j q Hy Hj)].
  - intros v q Hv. eapply hasL_ext; [exact X|]. now apply Tg.
Qed.
Lemma typed_add_ref s q s' : add_ref s q = Ok s' -> typed s -> typed s' /\ cext s s'.
Proof.
  destruct q as [o|]; cbn [add_ref]; [|intros [= <-] T; split; [exact T|apply cext_refl]].
  destruct (slot_get (objs s) o) as [ob| |] eqn:Eo; cbn [bind]; try discriminate. apply slot_get_inv in Eo. intros H T.
  assert (s' = set_obj s o (Obj (S (rc ob)) (st ob) (cls ob) (mem ob))) as -> by (destruct (st ob); congruence). now apply typed_set.
Qed.
Lemma typed_write s l q s' : write s l q = Ok s' -> typed s -> hasL s q (llev s l) -> typed s' /\ cext s s'.
Proof.
  destruct l as [v|o j]; cbn [write llev].
  - unfold slot_set. destruct (v <? length (globs s)); cbn [bind]; [|discriminate]. intros [= <-] [Tm Tg] Hq. split; [|exact (fun o k h => h)]. split.
    + intros o ob k p Ho Hk. exact (Tm o ob k p Ho Hk).
    + intros w p Hp. cbn [globs] in Hp. rewrite nth_error_upd in Hp. destruct (Nat.eqb_spec v w) as [<-|]; cbn [andb] in Hp; [|exact (Tg w p Hp)].
      destruct (v <? length (globs s)); [injection Hp as <-; exact Hq|exact (Tg v p Hp)].
  - destruct (slot_get (objs s) o) as [ob| |] eqn:Eo; cbn [bind]; try discriminate. apply slot_get_inv in Eo. intros H [Tm Tg] Hq.
    unfold clsof in Hq. rewrite Eo in Hq. cbn [option_map] in Hq.
    assert (H' : s' = set_obj s o (Obj (rc ob) (st ob) (cls ob) (upd (mem ob) j q)) /\ j < length (mem ob)).
    { unfold slot_set in H. destruct (Nat.ltb_spec j (length (mem ob))); cbn [bind] in H; destruct (st ob); try discriminate; split; congruence. }
    destruct H' as [-> Hj]. set (ob' := Obj (rc ob) (st ob) (cls ob) (upd (mem ob) j q)).
    assert (X : cext s (set_obj s o ob')) by (apply cext_eq; intros; now apply clsof_set with (ob := ob)). split; [|exact X]. split.
    + intros y b k p Hy Hk. rewrite set_nth in Hy by (eapply nth_lt; eauto). eapply hasL_ext; [exact X|].
      destruct (Nat.eqb_spec o y) as [<-|]; [|exact (Tm y b k p Hy Hk)]. injection Hy as <-. cbn [ob' mem cls] in *. rewrite nth_error_upd in Hk.
      destruct (Nat.eqb_spec j k) as [<-|]; cbn [andb] in Hk; [|exact (Tm o ob k p Eo Hk)].
      destruct (Nat.ltb_spec j (length (mem ob))); [injection Hk as <-; exact Hq|lia].
    + intros v p Hv. eapply hasL_ext; [exact X|]. now apply Tg.
Qed.

(** The RefPtrs in the middle of an assignment are of level at least [n], or members of objects under destruction. *)
Definition above (c : ctx) (n : nat) : Prop := forall v, bz c (LG v) = true -> n <= glev v.
Definition dmem (c : ctx) (D : list (nat * ostate)) : Prop := forall o j, bz c (LM o j) = true -> In (o, Dying) D.
(** What the commands of [c] may use. *)
Definition free (c : ctx) (s : world) (th : option nat) : Prop :=
  match this c, th with
  | Some o, Some k => clsof s o = Some k /\ above c (rank k) /\ (forall j, bz c (LM o j) = false)
  | None, None => busy c = []
  | _, _ => False
  end.
Definition ordered (c : ctx) (th : option nat) : Prop := match th with Some k => above c (rank k) | None => True end.

Lemma bz_free c s th p l : free c s th -> allowed th p -> path_ok ng nm (ist c) p -> res c p = Ok l -> bz c l = false /\ llev s l = lev th p.
Proof.
  intros F A Pk R. unfold free in F. destruct p as [v|j]; cbn [res allowed path_ok] in *.
  - injection R as <-. split; [|reflexivity]. destruct (this c) as [o|], th as [k|]; try contradiction.
    + destruct F as (_ & Ab & _). destruct (bz c (LG v)) eqn:X; [|reflexivity]. specialize (Ab v X). lia.
    + unfold bz. now rewrite F.
  - destruct (this c) as [o|] eqn:Et; [|discriminate]. injection R as <-. destruct th as [k|]; [|contradiction].
    destruct F as (Ck & _ & Fm). split; [apply Fm|]. cbn [llev lev]. now rewrite Ck.
Qed.
Lemma touch_free c l : bz c l = false -> touch true c l = Ok tt.
Proof. unfold touch. fold (bz c l). now intros ->. Qed.
Lemma put_lay B s E D nb l q n : inv s (fun x => E x + refs (addB l B) s x) D nb -> sloc E D l -> B l = false ->
  (forall o, q = Some o -> 0 < E o + refs (addB l B) s o) -> typed s -> hasL s q n -> n <= llev s l ->
  postL (put s l q) (fun s' => inv s' (fun x => E x + refs B s' x) D nb /\ typed s' /\ cext s s').
Proof.
  intros H Hl Hb Hq T Tq Ln. pose proof (put_ok ng nm B s E D nb l q H Hl Hb Hq) as P.
  assert (Ty : postL (put s l q) (fun s' => typed s' /\ cext s s')).
  { unfold put. destruct (write_ok ng nm _ _ _ _ l q H) as (s1 & W & H1 & R1 & _ & F1). { eapply sloc_vloc with (E := E); [exact H| |exact Hl]. intros; cbv beta; lia. }
    destruct (typed_write s l q s1 W T (hasL_le _ _ _ _ Ln Tq)) as [T1 X1]. rewrite W. cbn [bind].
    destruct (add_ref_ok ng nm _ _ _ _ q H1 Hq) as (s2 & A2 & _). destruct (typed_add_ref s1 q s2 A2 T1) as [T2 X2]. rewrite A2. cbn. split; [exact T2|]. eapply cext_trans; eauto. }
  destruct (put s l q); cbn in *; try contradiction; tauto.
Qed.
Lemma put_new_lay B s E D nb l n k : inv s (fun x => E x + refs (addB l B) s x) D (n :: nb) -> sloc E D l -> B l = false ->
  typed s -> hasL s (Some n) k -> k <= llev s l ->
  postL (put s l (Some n)) (fun s' => inv s' (fun x => E x + refs B s' x) D nb /\ typed s' /\ cext s s').
Proof.
  intros H Hl Hb T Tq Ln. pose proof (put_new_ok ng nm B s E D nb l n H Hl Hb) as P.
  assert (Ty : postL (put s l (Some n)) (fun s' => typed s' /\ cext s s')).
  { unfold put. destruct (write_ok ng nm _ _ _ _ l (Some n) H) as (s1 & W & H1 & R1 & _ & F1). { eapply sloc_vloc with (E := E); [exact H| |exact Hl]. intros; cbv beta; lia. }
    destruct (typed_write s l (Some n) s1 W T (hasL_le _ _ _ _ Ln Tq)) as [T1 X1]. rewrite W. cbn [bind].
    destruct (add_ref_new ng nm _ _ _ _ n H1) as (s2 & A2 & _). destruct (typed_add_ref s1 _ s2 A2 T1) as [T2 X2]. rewrite A2. cbn. split; [exact T2|]. eapply cext_trans; eauto. }
  destruct (put s l (Some n)); cbn in *; try contradiction; tauto.
Qed.
Lemma free_ext c s s' th : cext s s' -> free c s th -> free c s' th.
Proof. intros X. unfold free. destruct (this c) as [o|], th as [k|]; auto. intros (A & B). split; auto. Qed.
Lemma typed_alloc s k qs : typed s -> (forall j q, nth_error qs j = Some q -> hasL s q (mlev k j)) ->
  let s' := World (objs s ++ [Obj 0 Alive k qs]) (globs s) (log s) in typed s' /\ cext s s' /\ clsof s' (length (objs s)) = Some k.
Proof.
  intros [Tm Tg] Hq. cbv zeta. set (s' := World (objs s ++ [Obj 0 Alive k qs]) (globs s) (log s)).
  assert (X : cext s s').
  { intros o c. unfold clsof, s'. cbn [objs]. destruct (nth_error (objs s) o) as [ob|] eqn:E; [|discriminate].
    rewrite nth_error_app1 by (eapply nth_lt; eauto). rewrite E. auto. }
  split; [split|split; [exact X|]].
  - intros o ob j q Ho Hj. unfold s' in Ho. cbn [objs] in Ho. eapply hasL_ext; [exact X|].
    destruct (Nat.lt_ge_cases o (length (objs s))) as [Hi|Hi].
    + rewrite nth_error_app1 in Ho by exact Hi. exact (Tm o ob j q Ho Hj).
    + rewrite nth_error_app2 in Ho by exact Hi. destruct (o - length (objs s)) as [|[|d]]; cbn in Ho; try discriminate. injection Ho as <-. cbn in *. now apply Hq.
  - intros v q Hv. eapply hasL_ext; [exact X|]. exact (Tg v q Hv).
  - unfold clsof, s'. cbn [objs]. rewrite nth_error_app2, Nat.sub_diag by lia. reflexivity.
Qed.
Lemma lay_inv th k : layered_cmd th k ->
  match k with
  | Null l => allowed th l
  | New l c ms => allowed th l /\ rank c <= lev th l /\ forall j m, nth_error ms j = Some m -> allowed th m /\ lev th m <= mlev c j
  | Copy l m | Move l m => allowed th l /\ allowed th m /\ lev th m <= lev th l /\ l <> m
  | Hold m body => allowed th m /\ forall k, In k body -> layered_cmd th k
  | CopyRaw _ _ | Store _ _ _ => False
  end.
Proof. intros H; inversion H; subst; auto. Qed.

Variables (debug : bool) (wrap : nat) (script : nat -> list cmd).
Hypothesis Hscript : forall c k, In k (script c) -> cmd_ok ng nm true k.
Hypothesis Hmlev : forall c j, j < nm -> mlev c j <= rank c.
Hypothesis Hlay : forall c k, In k (script c) -> layered_cmd (Some c) k.

(** A reference to give back, of level at most [n], may be released where [n] is not below anything being assigned. *)
Lemma allowed_above c s th p l : free c s th -> allowed th p -> path_ok ng nm (ist c) p -> res c p = Ok l -> above c (lev th p).
Proof.
  intros F A Pk R v Hv. unfold free in F. destruct (this c) as [o|] eqn:Et, th as [k|]; try contradiction.
  - destruct F as (_ & Ab & _). specialize (Ab v Hv). destruct p as [w|j]; cbn [lev allowed] in *; [lia|].
    destruct Pk as [_ Hj]. specialize (Hmlev k j Hj). lia.
  - unfold bz in Hv. rewrite F in Hv. discriminate.
Qed.
Lemma above_assigning c n l : above c n -> (forall v, l = LG v -> n <= glev v) -> above (assigning c l) n.
Proof.
  intros Ab Hl v. rewrite bz_assigning. unfold addB. destruct (loc_eqb_spec (LG v) l) as [<-|]; [intros _; now apply Hl|apply Ab].
Qed.
Lemma above_le c n n' : n' <= n -> above c n -> above c n'.
Proof. intros H A v Hv. specialize (A v Hv). lia. Qed.

Section Given.
Variables (EX : ctx -> world -> list cmd -> outcome world) (RL : ctx -> world -> nat -> outcome world).
Hypothesis HEX : forall c s E D nb ks th, inv s (fun x => E x + refs (bz c) s x) D nb -> good c E D -> okt c D -> dmem c D -> typed s ->
  free c s th -> (forall k, In k ks -> cmd_ok ng nm (ist c) k /\ layered_cmd th k) ->
  postL (EX c s ks) (fun s' => inv s' (fun x => E x + refs (bz c) s' x) D nb /\ typed s' /\ cext s s').
Hypothesis HRL : forall c s E D nb o n, inv s (fun x => E x + points x (Some o) + refs (bz c) s x) D nb -> good c E D -> dmem c D -> typed s ->
  hasL s (Some o) n -> above c n ->
  postL (RL c s o) (fun s' => inv s' (fun x => E x + refs (bz c) s' x) D nb /\ typed s' /\ cext s s').

Lemma relp_lay c s E D nb q n : inv s (fun x => E x + points x q + refs (bz c) s x) D nb -> good c E D -> dmem c D -> typed s ->
  hasL s q n -> above c n ->
  postL (relp RL c s q) (fun s' => inv s' (fun x => E x + refs (bz c) s' x) D nb /\ typed s' /\ cext s s').
Proof.
  intros H G Dm T Hq Ab. destruct q as [o|]; cbn [relp]; [now apply HRL with (n := n)|]. cbn [postL]. split; [|split; [exact T|apply cext_refl]].
  eapply inv_ext; [|exact H]. intros x. cbn. lia.
Qed.
(** A path of the current context, resolved. *)
Definition cur (c : ctx) (s : world) (E : nat -> nat) (D : list (nat * ostate)) (th : option nat) (p : path) (l : loc) : Prop :=
  res c p = Ok l /\ sloc E D l /\ bz c l = false /\ llev s l = lev th p /\ above c (lev th p).
Lemma cur_ok c s E D th p : okt c D -> free c s th -> allowed th p -> path_ok ng nm (ist c) p -> exists l, cur c s E D th p l.
Proof.
  intros Ht F A Pk. destruct (res_ok ng nm c E D p Ht Pk) as (l & R & S). exists l.
  destruct (bz_free c s th p l F A Pk R) as [Hb Hl]. split; [exact R|]. split; [exact S|]. split; [exact Hb|]. split; [exact Hl|].
  now apply (allowed_above c s th p l).
Qed.
Lemma llev_ext c s s' E D th p l : okt c D -> free c s th -> cext s s' -> cur c s E D th p l -> llev s' l = lev th p.
Proof.
  intros Ht F X (R & S & _ & L & _). rewrite <- L. destruct l as [v|o j]; cbn [llev]; [reflexivity|].
  destruct p as [v|k]; cbn [res] in R; [discriminate|]. destruct (this c) as [y|] eqn:Ey; [|discriminate]. injection R as -> ->.
  unfold free in F. rewrite Ey in F. destruct th as [k|]; [|contradiction]. destruct F as (Ck & _). rewrite Ck, (X _ _ Ck). reflexivity.
Qed.
Lemma old_lay c s E D nb th p l : inv s (fun x => E x + refs (bz c) s x) D nb -> good c E D -> okt c D -> dmem c D -> typed s -> free c s th ->
  cur c s E D th p l ->
  postL (release_old true RL c s l)
    (fun s' => inv s' (fun x => E x + refs (addB l (bz c)) s' x) D nb /\ typed s' /\ cext s s' /\ llev s' l = lev th p).
Proof.
  intros H G Ht Dm T F C. assert (C0 := C). destruct C as (R & Sl & Hb & Ll & Ab). unfold release_old. rewrite touch_free by exact Hb. cbn [bind].
  destruct (read_ok ng nm _ _ _ _ l H) as [q Hq]. { eapply sloc_vloc with (E := E); [exact H| |exact Sl]. intros; cbv beta; lia. }
  rewrite Hq. cbn [bind]. pose proof (typed_read s l q T Hq) as Tq. rewrite Ll in Tq.
  eapply postL_weaken; [apply relp_lay with (E := E) (D := D) (nb := nb) (n := lev th p)|].
  - eapply inv_ext; [|exact H]. intros x. cbv beta. rewrite (refs_busy (bz c) s l q x Hq Hb).
    change (refs (bz (assigning c l)) s x) with (refs (addB l (bz c)) s x). lia.
  - now apply (good_assigning ng nm).
  - intros o j. rewrite bz_assigning. unfold addB. destruct (loc_eqb_spec (LM o j) l) as [<-|]; [intros _|apply Dm].
    destruct p as [v|k]; cbn [res] in R; [discriminate|]. destruct (this c) as [y|] eqn:Ey; [|discriminate]. injection R as -> ->. now apply Ht.
  - exact T.
  - exact Tq.
  - apply above_assigning; [exact Ab|]. intros v ->. cbn [llev] in Ll. lia.
  - intros s' (H' & T' & X'). split; [exact H'|]. split; [exact T'|]. split; [exact X'|]. eapply llev_ext; eauto.
Qed.
Lemma cur_ext c s s' E D th p l : okt c D -> free c s th -> cext s s' -> cur c s E D th p l -> cur c s' E D th p l.
Proof.
  intros Ht F X C. assert (L := llev_ext c s s' E D th p l Ht F X C). destruct C as (A1 & A2 & A3 & A4 & A5). repeat (split; [assumption|]). exact A5.
Qed.
Lemma copies_lay c E D nb th : okt c D -> forall ms s X c0 i, inv s (fun x => E x + X x + refs (bz c) s x) D nb -> typed s -> free c s th ->
  Forall (path_ok ng nm (ist c)) ms ->
  (forall j m, nth_error ms j = Some m -> allowed th m /\ lev th m <= mlev c0 (i + j)) ->
  postL (copies true c s ms) (fun '(s', qs) => length qs = length ms /\ inv s' (fun x => E x + X x + sum (map (points x) qs) + refs (bz c) s' x) D nb /\
    typed s' /\ cext s s' /\ forall j q, nth_error qs j = Some q -> hasL s' q (mlev c0 (i + j))).
Proof.
  intros Ht. induction ms as [|m ms IH]; intros s X c0 i H T F Fo Al; cbn [copies].
  - cbn [postL]. split; [reflexivity|]. split; [|split; [exact T|split; [apply cext_refl|intros [|j] q; discriminate]]].
    eapply inv_ext; [|exact H]. intros x. cbn. lia.
  - inversion Fo as [|? ? Fm Fs]; subst. destruct (Al 0 m eq_refl) as [Am Lm].
    destruct (cur_ok c s E D th m Ht F Am Fm) as (l & C). destruct C as (R & Sl & Hb & Ll & Ab). rewrite R. cbn [bind].
    rewrite touch_free by exact Hb. cbn [bind].
    destruct (read_ok ng nm _ _ _ _ l H) as [q Hq]. { eapply sloc_vloc with (E := E); [exact H| |exact Sl]. intros; cbv beta; lia. }
    rewrite Hq. cbn [bind].
    destruct (add_ref_ok ng nm _ _ _ _ q H) as (s2 & A2 & H2 & F2 & R2).
    { intros o Eo. pose proof (refs_points (bz c) s o l q Hq Hb) as Y. rewrite Eo, points_refl in Y. lia. }
    pose proof (typed_read s l q T Hq) as Tq. rewrite Ll in Tq.
    destruct (typed_add_ref s q s2 A2 T) as [T2 X2]. rewrite A2. cbn [bind].
    eapply postL_bind; [apply (IH s2 (fun x => X x + points x q) c0 (S i))|].
    + eapply inv_ext; [|exact H2]. intros x. cbv beta. rewrite F2. lia.
    + exact T2.
    + eapply free_ext; eauto.
    + exact Fs.
    + intros j m' Hj. specialize (Al (S j) m' Hj). rewrite Nat.add_succ_r in Al. exact Al.
    + intros [s3 qs] (L3 & H3 & T3 & X3 & Q3). cbn [postL]. split; [cbn; lia|]. split.
      { eapply inv_ext; [|exact H3]. intros x. cbn. fold (sum (map (points x) qs)). lia. }
      split; [exact T3|]. split; [eapply cext_trans; eauto|]. intros [|j] p Hj; cbn [nth_error] in Hj.
      * injection Hj as <-. eapply hasL_le; [exact Lm|]. eapply hasL_ext; [|exact Tq]. eapply cext_trans; eauto.
      * rewrite Nat.add_succ_r. now apply Q3.
Qed.
Lemma cur_ne c s E D th p p' l l' : cur c s E D th p l -> cur c s E D th p' l' -> p <> p' -> l <> l'.
Proof.
  intros (R & _) (R' & _) Hne ->. apply Hne. destruct p as [v|j], p' as [v'|j']; cbn [res] in *; try congruence;
    destruct (this c); try discriminate; congruence.
Qed.

Lemma step_lay c s E D nb k th : inv s (fun x => E x + refs (bz c) s x) D nb -> good c E D -> okt c D -> dmem c D -> typed s -> free c s th ->
  cmd_ok ng nm (ist c) k -> layered_cmd th k ->
  postL (step true EX RL c s k) (fun s' => inv s' (fun x => E x + refs (bz c) s' x) D nb /\ typed s' /\ cext s s').
Proof.
  intros H G Ht Dm T F Hk Hl. apply (cmd_ok_inv ng nm) in Hk. apply lay_inv in Hl.
  destruct k as [l|l k ms|l m|l m|l m|m body|v j m]; cbn [step]; try contradiction.
  - destruct (cur_ok c s E D th l Ht F Hl Hk) as (l' & C). rewrite (proj1 C). cbn [bind].
    eapply postL_bind; [apply (old_lay c s E D nb th l l'); assumption|]. intros s1 (H1 & T1 & X1 & L1).
    destruct C as (_ & Sl & Hb & _). eapply postL_weaken; [apply (put_lay (bz c) s1 E D nb l' None 0); auto; [intros o [=]|exact Logic.I|lia]|].
    intros s2 (H2 & T2 & X2). split; [exact H2|]. split; [exact T2|]. eapply cext_trans; eauto.
  - destruct Hk as (K1 & K2 & K3). destruct Hl as (L1 & L2 & L3).
    eapply postL_bind; [apply (copies_lay c E D nb th Ht ms s (fun _ => 0) k 0); auto|].
    { eapply inv_ext; [|exact H]. intros x. cbv beta. lia. }
    intros [s1 qs] (Lq & H1 & T1 & X1 & Q1). cbv zeta.
    destruct (typed_alloc s1 k qs T1 Q1) as (T2 & X2 & C2).
    pose proof (alloc_ok ng nm (bz c) s1 E D nb k qs) as H2. cbv zeta in H2. specialize (H2 ltac:(eapply inv_ext; [|exact H1]; intros x; cbv beta; lia) ltac:(congruence) (proj1 G)).
    set (s2 := World (objs s1 ++ [Obj 0 Alive k qs]) (globs s1) (log s1)) in *.
    assert (F2 : free c s2 th) by (eapply free_ext; [exact X2|]; eapply free_ext; eauto).
    destruct (cur_ok c s2 E D th l Ht F2 L1 K1) as (l' & C). rewrite (proj1 C). cbn [bind].
    eapply postL_bind; [apply (old_lay c s2 E D (length (objs s1) :: nb) th l l'); assumption|]. intros s3 (H3 & T3 & X3 & L3').
    destruct C as (_ & Sl & Hb & _). eapply postL_weaken; [apply (put_new_lay (bz c) s3 E D nb l' (length (objs s1)) (rank k)); auto; [exists k; split; [now apply X3|lia]|lia]|].
    intros s4 (H4 & T4 & X4). split; [exact H4|]. split; [exact T4|]. eapply cext_trans; [exact X1|]. eapply cext_trans; [exact X2|]. eapply cext_trans; eauto.
  - destruct Hk as (K1 & K2). destruct Hl as (L1 & L2 & L3 & L4).
    destruct (cur_ok c s E D th l Ht F L1 K1) as (l' & Cl). destruct (cur_ok c s E D th m Ht F L2 K2) as (m' & Cm).
    pose proof (cur_ne _ _ _ _ _ _ _ _ _ Cl Cm L4) as Hne. rewrite (proj1 Cl), (proj1 Cm). cbn [bind]. unfold copy_assign.
    eapply postL_bind; [apply (old_lay c s E D nb th l l'); assumption|]. intros s1 (H1 & T1 & X1 & Lv1).
    pose proof (cur_ext c s s1 E D th m m' Ht F X1 Cm) as Cm1. destruct Cm1 as (_ & Sm & Hbm & Lm & _). destruct Cl as (_ & Sl & Hbl & _).
    assert (Hb2 : bz (assigning c l') m' = false) by (rewrite bz_assigning, addB_ne by auto; exact Hbm).
    rewrite touch_free by exact Hb2. cbn [bind]. change (bz (assigning c l') m') with (addB l' (bz c) m') in Hb2.
    destruct (read_ok ng nm _ _ _ _ m' H1) as [q Hq]. { eapply sloc_vloc with (E := E); [exact H1| |exact Sm]. intros; cbv beta; lia. }
    rewrite Hq. cbn [bind]. pose proof (typed_read s1 m' q T1 Hq) as Tq. rewrite Lm in Tq.
    eapply postL_weaken; [apply (put_lay (bz c) s1 E D nb l' q (lev th m)); auto; [eapply read_pos; eauto|lia]|].
    intros s2 (H2 & T2 & X2). split; [exact H2|]. split; [exact T2|]. eapply cext_trans; eauto.
  - destruct Hk as (K1 & K2). destruct Hl as (L1 & L2 & L3 & L4).
    destruct (cur_ok c s E D th l Ht F L1 K1) as (l' & Cl). destruct (cur_ok c s E D th m Ht F L2 K2) as (m' & Cm).
    pose proof (cur_ne _ _ _ _ _ _ _ _ _ Cl Cm L4) as Hne.
    rewrite (proj1 Cl), (proj1 Cm). cbn [bind].
    eapply postL_bind; [apply (old_lay c s E D nb th l l'); assumption|]. intros s1 (H1 & T1 & X1 & Lv1).
    pose proof (cur_ext c s s1 E D th m m' Ht F X1 Cm) as Cm1. destruct Cm1 as (_ & Sm & Hbm & Lm & _). destruct Cl as (_ & Sl & Hbl & _).
    assert (Hb2 : bz (assigning c l') m' = false) by (rewrite bz_assigning, addB_ne by auto; exact Hbm).
    rewrite touch_free by exact Hb2. cbn [bind]. change (bz (assigning c l') m') with (addB l' (bz c) m') in Hb2.
    destruct (read_ok ng nm _ _ _ _ m' H1) as [q Hq]. { eapply sloc_vloc with (E := E); [exact H1| |exact Sm]. intros; cbv beta; lia. }
    rewrite Hq. cbn [bind]. pose proof (typed_read s1 m' q T1 Hq) as Tq. rewrite Lm in Tq.
    destruct (write_ok ng nm _ _ _ _ l' q H1) as (s2 & W2 & H2 & R2 & N2 & F2). { eapply sloc_vloc with (E := E); [exact H1| |exact Sl]. intros; cbv beta; lia. }
    destruct (typed_write s1 l' q s2 W2 T1 ltac:(eapply hasL_le; [|exact Tq]; lia)) as [T2 X2]. rewrite W2. cbn [bind].
    destruct (write_ok ng nm _ _ _ _ m' None H2) as (s3 & W3 & H3 & R3 & N3 & F3). { eapply sloc_vloc with (E := E); [exact H2| |exact Sm]. intros; cbv beta; lia. }
    destruct (typed_write s2 m' None s3 W3 T2 Logic.I) as [T3 X3]. rewrite W3. cbn [postL].
    split; [|split; [exact T3|eapply cext_trans; [exact X1|]; eapply cext_trans; eauto]].
    eapply inv_ext; [|exact H3]. intros x. cbv beta.
    assert (Hl3 : read s3 l' = Ok q) by (rewrite N3 by congruence; exact R2).
    rewrite (refs_busy (bz c) s3 l' q x Hl3 Hbl).
    rewrite (refs_busy (addB l' (bz c)) s3 m' None x R3 Hb2).
    rewrite (refs_busy (addB l' (bz c)) s1 m' q x Hq Hb2).
    rewrite (F3 (addB m' (addB l' (bz c)))) by apply addB_same.
    rewrite (F2 (addB m' (addB l' (bz c)))) by (rewrite addB_ne by congruence; apply addB_same).
    cbn. lia.
  - destruct Hk as (K1 & K2). destruct Hl as (L1 & L2).
    destruct (cur_ok c s E D th m Ht F L1 K1) as (m' & C). rewrite (proj1 C). cbn [bind]. destruct C as (_ & Sm & Hb & Lm & Ab).
    rewrite touch_free by exact Hb. cbn [bind].
    destruct (read_ok ng nm _ _ _ _ m' H) as [q Hq]. { eapply sloc_vloc with (E := E); [exact H| |exact Sm]. intros; cbv beta; lia. }
    rewrite Hq. cbn [bind]. pose proof (typed_read s m' q T Hq) as Tq. rewrite Lm in Tq.
    destruct (add_ref_ok ng nm _ _ _ _ q H) as (s1 & A1 & H1 & F1 & R1). { eapply read_pos; eauto. }
    destruct (typed_add_ref s q s1 A1 T) as [T1 X1]. rewrite A1. cbn [bind].
    eapply postL_bind; [apply (HEX (Ctx (this c) (busy c) (q :: pins c)) s1 (fun x => E x + points x q) D nb body th)|].
    + eapply inv_ext; [|exact H1]. intros x. cbv beta. change (bz (Ctx (this c) (busy c) (q :: pins c))) with (bz c). rewrite F1. lia.
    + destruct G as [Gb Gp]. split; [intros o j X; destruct (Gb o j X); [auto|right; lia]|].
      intros z [->|Hz]; [rewrite points_refl; lia|]. specialize (Gp z Hz). lia.
    + exact Ht.
    + exact Dm.
    + exact T1.
    + apply free_ext with (s := s); [exact X1|exact F].
    + intros k Hk. split; [exact (K2 k Hk)|exact (L2 k Hk)].
    + intros s2 (H2 & T2 & X2). eapply postL_weaken; [apply (relp_lay c s2 E D nb q (lev th m)); auto|].
      { eapply hasL_ext; [|exact Tq]. eapply cext_trans; eauto. }
      intros s3 (H3 & T3 & X3). split; [exact H3|]. split; [exact T3|]. eapply cext_trans; [exact X1|]. eapply cext_trans; eauto.
Qed.
Lemma drop_lay c D nb : forall qs s E n, inv s (fun x => E x + sum (map (points x) qs) + refs (bz c) s x) D nb -> good c E D -> dmem c D -> typed s ->
  (forall q, In q qs -> hasL s q n) -> above c n ->
  postL (drop_members RL c s qs) (fun s' => inv s' (fun x => E x + refs (bz c) s' x) D nb /\ typed s' /\ cext s s').
Proof.
  induction qs as [|q qs IH]; intros s E n H G Dm T Hq Ab; cbn [drop_members].
  - cbn [postL]. split; [|split; [exact T|apply cext_refl]]. eapply inv_ext; [|exact H]. intros x. cbn. lia.
  - eapply postL_bind; [apply (relp_lay c s (fun x => E x + sum (map (points x) qs)) D nb q n)|]; auto.
    + eapply inv_ext; [|exact H]. intros x. cbn. fold (sum (map (points x) qs)). lia.
    + destruct G as [Gb Gp]. split; [intros o j X; destruct (Gb o j X); [auto|right; lia]|]. intros z Hz. specialize (Gp z Hz). lia.
    + apply Hq. now left.
    + intros s1 (H1 & T1 & X1). eapply postL_weaken; [apply (IH s1 E n); auto|].
      * intros p Hp. eapply hasL_ext; [exact X1|]. apply Hq. now right.
      * intros s2 (H2 & T2 & X2). split; [exact H2|]. split; [exact T2|]. eapply cext_trans; eauto.
Qed.

Lemma release_lay c s E D nb o n : inv s (fun x => E x + points x (Some o) + refs (bz c) s x) D nb -> good c E D -> dmem c D -> typed s ->
  hasL s (Some o) n -> above c n ->
  postL (release debug wrap script EX RL c s o) (fun s' => inv s' (fun x => E x + refs (bz c) s' x) D nb /\ typed s' /\ cext s s').
Proof.
  intros H G Dm T (k & Ck & Lk) Ab0. assert (Ab := above_le c n (rank k) Lk Ab0). clear Ab0 Lk n.
  unfold release. destruct (i_tgt _ _ _ _ _ _ H o) as (ob & Ho & A). { rewrite points_refl. lia. }
  assert (cls ob = k) as <- by (unfold clsof in Ck; rewrite Ho in Ck; cbn in Ck; congruence).
  rewrite (slot_get_ok _ _ _ Ho). cbn [bind]. pose proof (i_rc _ _ _ _ _ _ H o ob Ho A) as Hr. cbv beta in Hr. rewrite points_refl in Hr.
  rewrite A. destruct (rc ob) as [|n] eqn:Er; [lia|].
  unfold assert_. change (0 <? S n) with true. rewrite andb_false_r. cbn [bind].
  destruct (n =? 0) eqn:En.
  2:{ apply Nat.eqb_neq in En. cbn [postL]. split; [now apply rel_dec|]. now apply typed_set. }
  apply Nat.eqb_eq in En. subst n.
  assert (HnD : forall z, z = Dying \/ z = Ending -> ~ In (o, z) D) by (eapply alive_notD; eauto).
  assert (HB : forall j, bz c (LM o j) = false) by (apply (last_not_busy ng nm (bz c) s E D nb o ob); auto; exact (proj1 G)).
  set (s1 := set_obj s o (Obj 0 Alive (cls ob) (mem ob))).
  assert (Ho1 : nth_error (objs s1) o = Some (Obj 0 Alive (cls ob) (mem ob))) by (unfold s1; rewrite set_nth, Nat.eqb_refl by (eapply nth_lt; eauto); reflexivity).
  destruct (typed_set s o ob 0 Alive Ho T) as [T1 X1]. fold s1 in T1, X1.
  destruct (typed_set s1 o _ 0 Dying Ho1 T1) as [T2 X2]. cbn [cls mem] in T2, X2.
  unfold destroy. rewrite (slot_get_ok _ _ _ Ho1). cbn [bind st rc cls mem].
  pose proof (rel_dying ng nm (bz c) s E D nb o ob H Ho A Er) as H2. cbv zeta in H2. fold s1 in H2.
  set (s2 := set_obj s1 o (Obj 0 Dying (cls ob) (mem ob))) in *.
  assert (C2 : clsof s2 o = Some (cls ob)) by (apply X2, X1; exact Ck).
  eapply postL_bind; [apply (HEX (Ctx (Some o) (busy c) (pins c)) s2 E ((o, Dying) :: D) nb (script (cls ob)) (Some (cls ob)))|].
  - exact H2.
  - destruct G as [Gb Gp]. split; [|exact Gp]. intros y j X. destruct (Gb y j X); [left; now right|auto].
  - intros y [= <-]. now left.
  - intros y j X. right. now apply (Dm y j).
  - exact T2.
  - split; [exact C2|]. split; [exact Ab|exact HB].
  - intros k Hk. split; [exact (Hscript _ k Hk)|exact (Hlay _ k Hk)].
  - intros s3 (H3 & T3 & X3). change (bz (Ctx (Some o) (busy c) (pins c))) with (bz c) in H3.
    destruct (proj1 (i_dy _ _ _ _ _ _ H3 o Dying (or_introl eq_refl)) (or_introl eq_refl)) as (ob3 & Ho3 & S3).
    rewrite (slot_get_ok _ _ _ Ho3). cbn [bind].
    assert (C3 : cls ob3 = cls ob) by (apply X3 in C2; unfold clsof in C2; rewrite Ho3 in C2; cbn in C2; congruence).
    pose proof (rel_ending ng nm (bz c) s3 E D nb o ob3 H3 Ho3 S3 HnD HB) as H4. cbv zeta in H4.
    destruct (typed_set s3 o ob3 (rc ob3) Ending Ho3 T3) as [T4 X4].
    eapply postL_bind; [apply (drop_lay (Ctx None (busy c) (pins c)) ((o, Ending) :: D) nb (rev (mem ob3)) _ E (rank (cls ob)) H4)|].
    + destruct G as [Gb Gp]. split; [|exact Gp]. intros y j X. destruct (Gb y j X); [left; now right|auto].
    + intros y j X. right. now apply (Dm y j).
    + exact T4.
    + intros q Hq. apply in_rev in Hq. apply In_nth_error in Hq. destruct Hq as [j Hj]. eapply hasL_ext; [exact X4|].
      eapply hasL_le; [|exact (proj1 T3 o ob3 j q Ho3 Hj)]. rewrite C3. apply Hmlev.
      rewrite <- (i_nm _ _ _ _ _ _ H3 o ob3 Ho3 (or_intror S3)). eapply nth_lt; eauto.
    + exact Ab.
    + intros s5 (H5 & T5 & X5). change (bz (Ctx None (busy c) (pins c))) with (bz c) in H5.
      destruct (proj1 (i_dy _ _ _ _ _ _ H5 o Ending (or_intror eq_refl)) (or_introl eq_refl)) as (ob5 & Ho5 & S5).
      rewrite (slot_get_ok _ _ _ Ho5). cbn [bind postL]. split; [now apply rel_dead|].
      assert (X6 : cext s5 (World (upd (objs s5) o (Obj (rc ob5) Dead (cls ob5) [])) (globs s5) (o :: log s5))).
      { apply (cext_eq s5 (set_obj s5 o (Obj (rc ob5) Dead (cls ob5) []))). intros y. now apply clsof_set with (ob := ob5). }
      split; [split|].
      * intros y b j q Hy Hj. pose proof (set_nth s5 o (Obj (rc ob5) Dead (cls ob5) []) y (nth_lt _ _ _ Ho5)) as Hy'. cbn [set_obj objs] in Hy, Hy'. rewrite Hy' in Hy. clear Hy'.
        eapply hasL_ext; [exact X6|]. destruct (Nat.eqb_spec o y) as [<-|]; [injection Hy as <-; destruct j; discriminate|]. exact (proj1 T5 y b j q Hy Hj).
      * intros v q Hv. eapply hasL_ext; [exact X6|]. exact (proj2 T5 v q Hv).
      * eapply cext_trans; [exact X1|]. eapply cext_trans; [exact X2|]. eapply cext_trans; [exact X3|]. eapply cext_trans; [exact X4|]. eapply cext_trans; [exact X5|exact X6].
Qed.
End Given.

Lemma machine_lay : forall f,
  (forall c s E D nb ks th, inv s (fun x => E x + refs (bz c) s x) D nb -> good c E D -> okt c D -> dmem c D -> typed s ->
     free c s th -> (forall k, In k ks -> cmd_ok ng nm (ist c) k /\ layered_cmd th k) ->
     postL (exec debug wrap true script f c s ks) (fun s' => inv s' (fun x => E x + refs (bz c) s' x) D nb /\ typed s' /\ cext s s')) /\
  (forall c s E D nb o n, inv s (fun x => E x + points x (Some o) + refs (bz c) s x) D nb -> good c E D -> dmem c D -> typed s ->
     hasL s (Some o) n -> above c n ->
     postL (rel debug wrap true script f c s o) (fun s' => inv s' (fun x => E x + refs (bz c) s' x) D nb /\ typed s' /\ cext s s')).
Proof.
  induction f as [|f [IHe IHr]]; [split; intros; exact Logic.I|]. split.
  - intros c s E D nb ks th H G Ht Dm T F Hk. cbn [exec]. destruct ks as [|k ks]; [split; [exact H|split; [exact T|apply cext_refl]]|].
    destruct (Hk k (or_introl eq_refl)) as [K1 K2].
    eapply postL_bind; [apply (step_lay _ _ IHe IHr c s E D nb k th); assumption|].
    intros s1 (H1 & T1 & X1). eapply postL_weaken; [apply (IHe c s1 E D nb ks th); auto|].
    + eapply free_ext; eauto.
    + intros k' Hk'. apply Hk. now right.
    + intros s2 (H2 & T2 & X2). split; [exact H2|]. split; [exact T2|]. eapply cext_trans; eauto.
  - intros c s E D nb o n H G Dm T Hl Ab. cbn [rel]. now apply release_lay with (n := n).
Qed.
End L.
