(** The observed machine never faults: it stops only for a use the observer reports. *)
From Verif Require Import Base ReenterModel ReenterSpec ReenterProofs.

Definition post {A} (r : outcome A) (P : A -> Prop) : Prop :=
  match r with Ok a => P a | Fault BadArg | Diverge => True | Fault _ => False end.
Lemma post_bind {A B} (r : outcome A) (f : A -> outcome B) P Q : post r P -> (forall a, P a -> post (f a) Q) -> post (bind r f) Q.
Proof. destruct r as [a|e|]; cbn; intros H HF; auto; destruct e; auto. Qed.
Lemma post_weaken {A} (r : outcome A) (P Q : A -> Prop) : post r P -> (forall a, P a -> Q a) -> post r Q.
Proof. destruct r as [a|e|]; cbn; intros H HF; auto. Qed.

Section S.
Variables ng nm : nat.
Notation inv := (inv ng nm).
Notation sloc := (sloc ng nm).

Definition bz (c : ctx) : loc -> bool := fun l => existsb (loc_eqb l) (busy c).
Lemma bz_assigning c l : forall x, bz (assigning c l) x = addB l (bz c) x.
Proof. reflexivity. Qed.
Definition okb (B : loc -> bool) (E : nat -> nat) (D : list (nat * ostate)) : Prop :=
  forall o j, B (LM o j) = true -> In (o, Dying) D \/ 0 < E o.
Definition okp (c : ctx) (E : nat -> nat) : Prop := forall q, In (Some q) (pins c) -> 0 < E q.
Definition okt (c : ctx) (D : list (nat * ostate)) : Prop := forall o, this c = Some o -> In (o, Dying) D.
Definition good (c : ctx) (E : nat -> nat) (D : list (nat * ostate)) : Prop := okb (bz c) E D /\ okp c E.
Definition ist (c : ctx) : bool := match this c with Some _ => true | None => false end.

Lemma touch_post c l : post (touch true c l) (fun _ => bz c l = false).
Proof. unfold touch. fold (bz c l). cbn [andb]. destruct (bz c l); cbn; auto. Qed.
Lemma pinned_post c q E : okp c E -> post (pinned true c q) (fun _ => forall o, q = Some o -> 0 < E o).
Proof.
  intros H. unfold pinned. cbn [andb existsb]. destruct q as [o|]; cbn.
  - destruct (existsb (opt_eqb (Some o)) (pins c)) eqn:X; cbn; [|auto]. intros o' [= <-].
    apply existsb_exists in X. destruct X as ([z|] & Hz & Ez); cbn in Ez; [|discriminate]. apply Nat.eqb_eq in Ez. subst. now apply H.
  - intros o [=].
Qed.
Lemma res_ok c E D p : okt c D -> path_ok ng nm (ist c) p -> exists l, res c p = Ok l /\ sloc E D l.
Proof.
  intros Ht. destruct p as [v|j]; cbn [path_ok res].
  - intros Hv. exists (LG v). split; auto.
  - unfold ist. destruct (this c) as [o|] eqn:Et; [|intros []; discriminate]. intros [_ Hj]. exists (LM o j). split; [reflexivity|]. split; [exact Hj|]. left. now apply Ht.
Qed.

(** ** The stages of a destruction *)
Lemma alive_notD s T D nb o ob : inv s T D nb -> nth_error (objs s) o = Some ob -> st ob = Alive -> forall z, z = Dying \/ z = Ending -> ~ In (o, z) D.
Proof. intros H Ho A z Hz X. apply (i_dy _ _ _ _ _ _ H o z Hz) in X. destruct X as (b & Hb & Sb). destruct Hz; congruence. Qed.
Lemma last_not_busy B s E D nb o ob : inv s (fun x => E x + points x (Some o) + refs B s x) D nb -> nth_error (objs s) o = Some ob -> st ob = Alive ->
  rc ob = 1 -> okb B E D -> forall j, B (LM o j) = false.
Proof.
  intros H Ho A Er Gb j. destruct (B (LM o j)) eqn:X; [|reflexivity]. exfalso.
  pose proof (i_rc _ _ _ _ _ _ H o ob Ho A) as Hr. cbv beta in Hr. rewrite points_refl in Hr.
  destruct (Gb o j X) as [Hd|He]; [exact (alive_notD _ _ _ _ _ _ H Ho A Dying (or_introl eq_refl) Hd)|lia].
Qed.
Lemma rel_dec B s E D nb o ob n : inv s (fun x => E x + points x (Some o) + refs B s x) D nb -> nth_error (objs s) o = Some ob -> st ob = Alive ->
  rc ob = S n -> n <> 0 ->
  inv (set_obj s o (Obj n Alive (cls ob) (mem ob))) (fun x => E x + refs B (set_obj s o (Obj n Alive (cls ob) (mem ob))) x) D nb.
Proof.
  intros H Ho A Er En. pose proof (i_rc _ _ _ _ _ _ H o ob Ho A) as Hr. cbv beta in Hr. rewrite points_refl in Hr.
  assert (Hlt := nth_lt _ _ _ Ho).
  set (ob1 := Obj n Alive (cls ob) (mem ob)). set (s1 := set_obj s o ob1).
  assert (F1 : forall B x, refs B s1 x = refs B s x) by (intros B' x; pose proof (refs_set_same B' s o ob n x Ho) as X; rewrite A in X; exact X).
  assert (N1 : forall i, nth_error (objs s1) i = if o =? i then Some ob1 else nth_error (objs s) i) by (intros; now apply set_nth).
  split.
  - intros i b Hi Ab. rewrite N1 in Hi. rewrite F1. destruct (Nat.eqb_spec o i) as [<-|Hne]; [injection Hi as <-; cbn; lia|].
    rewrite (i_rc _ _ _ _ _ _ H i b Hi Ab), points_ne by auto. lia.
  - intros i Hi. rewrite F1 in Hi. rewrite N1. destruct (Nat.eqb_spec o i) as [<-|Hne]; [exists ob1; auto|].
    apply (i_tgt _ _ _ _ _ _ H). lia.
  - intros i. rewrite (i_nb _ _ _ _ _ _ H i), N1. destruct (Nat.eqb_spec o i) as [<-|Hne]; [|tauto].
    split; intros (b & Hb & Ab & Rb); [congruence|injection Hb as <-; cbn in Rb; lia].
  - exact (i_nbnd _ _ _ _ _ _ H).
  - intros i z Hz. rewrite (i_dy _ _ _ _ _ _ H i z Hz), N1. destruct (Nat.eqb_spec o i) as [<-|Hne]; [|tauto].
    split; intros (b & Hb & Zb); [rewrite Ho in Hb; injection Hb as <-|injection Hb as <-; cbn in Zb]; destruct Hz; congruence.
  - intros i. unfold s1 at 1. cbn [set_obj log]. rewrite (i_dead _ _ _ _ _ _ H i), N1. destruct (Nat.eqb_spec o i) as [<-|Hne]; [|tauto].
    split; intros (b & Hb & Zb); [rewrite Ho in Hb; injection Hb as <-|injection Hb as <-; cbn in Zb]; congruence.
  - exact (i_nd _ _ _ _ _ _ H).
  - exact (i_ng _ _ _ _ _ _ H).
  - intros i b Hi Ab. rewrite N1 in Hi. destruct (Nat.eqb_spec o i) as [<-|Hne]; [injection Hi as <-; exact (i_nm _ _ _ _ _ _ H o ob Ho (or_introl A))|].
    exact (i_nm _ _ _ _ _ _ H i b Hi Ab).
Qed.
Lemma rel_dying B s E D nb o ob : inv s (fun x => E x + points x (Some o) + refs B s x) D nb -> nth_error (objs s) o = Some ob -> st ob = Alive ->
  rc ob = 1 ->
  let s' := set_obj (set_obj s o (Obj 0 Alive (cls ob) (mem ob))) o (Obj 0 Dying (cls ob) (mem ob)) in
  inv s' (fun x => E x + refs B s' x) ((o, Dying) :: D) nb.
Proof.
  intros H Ho A Er. cbv zeta. pose proof (i_rc _ _ _ _ _ _ H o ob Ho A) as Hr. cbv beta in Hr. rewrite points_refl in Hr.
  assert (Hlt := nth_lt _ _ _ Ho). pose proof (alive_notD _ _ _ _ _ _ H Ho A) as HnD.
  assert (Hnb : ~ In o nb). { intros X. apply (i_nb _ _ _ _ _ _ H) in X. destruct X as (b & Hb & _ & Rb). congruence. }
  set (ob1 := Obj 0 Alive (cls ob) (mem ob)). set (s1 := set_obj s o ob1).
  assert (F1 : forall B x, refs B s1 x = refs B s x) by (intros B' x; pose proof (refs_set_same B' s o ob 0 x Ho) as X; rewrite A in X; exact X).
  assert (N1 : forall i, nth_error (objs s1) i = if o =? i then Some ob1 else nth_error (objs s) i) by (intros; now apply set_nth).
  assert (Hz : E o + refs B s o = 0) by lia.
  assert (Hlt1 : o < length (objs s1)) by (unfold s1, set_obj; cbn; now rewrite upd_length).
  assert (Ho1 : nth_error (objs s1) o = Some ob1) by (rewrite N1, Nat.eqb_refl; reflexivity).
  set (ob2 := Obj 0 Dying (cls ob) (mem ob)). set (s2 := set_obj s1 o ob2).
  assert (N2 : forall i, nth_error (objs s2) i = if o =? i then Some ob2 else nth_error (objs s) i).
  { intros i. unfold s2. rewrite set_nth by exact Hlt1. rewrite N1. now destruct (o =? i). }
  assert (F2 : forall B x, refs B s2 x = refs B s x).
  { intros B' x. rewrite <- F1. pose proof (refs_set B' s1 o ob1 ob2 x Ho1) as X. unfold orefs in X. cbn [ob1 ob2 st mem] in X. unfold s2. lia. }
  split.
  - intros i b Hi Ab. rewrite N2 in Hi. rewrite F2. destruct (Nat.eqb_spec o i) as [<-|Hne]; [injection Hi as <-; discriminate|].
    rewrite (i_rc _ _ _ _ _ _ H i b Hi Ab), points_ne by auto. lia.
  - intros i Hi. rewrite F2 in Hi. rewrite N2. destruct (Nat.eqb_spec o i) as [<-|Hne]; [lia|]. apply (i_tgt _ _ _ _ _ _ H). lia.
  - intros i. rewrite N2. destruct (Nat.eqb_spec o i) as [<-|Hne]; [|apply (i_nb _ _ _ _ _ _ H)].
    split; [tauto|]. intros (b & Hb & Ab & _). injection Hb as <-. discriminate.
  - exact (i_nbnd _ _ _ _ _ _ H).
  - intros i z Hz'. cbn [In]. rewrite N2. destruct (Nat.eqb_spec o i) as [<-|Hne].
    + split; [intros [X|X]; [injection X as <-; eauto|exfalso; exact (HnD z Hz' X)]|]. intros (b & Hb & Zb). injection Hb as <-. cbn in Zb. subst z. auto.
    + rewrite <- (i_dy _ _ _ _ _ _ H i z Hz'). split; [intros [X|X]; [congruence|exact X]|auto].
  - intros i. unfold s2 at 1, s1. cbn [set_obj log]. rewrite (i_dead _ _ _ _ _ _ H i), N2. destruct (Nat.eqb_spec o i) as [<-|Hne]; [|tauto].
    split; intros (b & Hb & Zb); [congruence|injection Hb as <-; discriminate].
  - exact (i_nd _ _ _ _ _ _ H).
  - exact (i_ng _ _ _ _ _ _ H).
  - intros i b Hi Ab. rewrite N2 in Hi. destruct (Nat.eqb_spec o i) as [<-|Hne]; [injection Hi as <-; exact (i_nm _ _ _ _ _ _ H o ob Ho (or_introl A))|].
    exact (i_nm _ _ _ _ _ _ H i b Hi Ab).
Qed.
Lemma rel_ending B s3 E D nb o ob3 : inv s3 (fun x => E x + refs B s3 x) ((o, Dying) :: D) nb -> nth_error (objs s3) o = Some ob3 -> st ob3 = Dying ->
  (forall z, z = Dying \/ z = Ending -> ~ In (o, z) D) -> (forall j, B (LM o j) = false) ->
  let s4 := set_obj s3 o (Obj (rc ob3) Ending (cls ob3) (mem ob3)) in
  inv s4 (fun x => E x + sum (map (points x) (rev (mem ob3))) + refs B s4 x) ((o, Ending) :: D) nb.
Proof.
  intros H3 Ho3 S3 HnD HB. cbv zeta. assert (Hlt3 := nth_lt _ _ _ Ho3).
    set (ob4 := Obj (rc ob3) Ending (cls ob3) (mem ob3)). set (s4 := set_obj s3 o ob4).
    assert (N4 : forall i, nth_error (objs s4) i = if o =? i then Some ob4 else nth_error (objs s3) i) by (intros; now apply set_nth).
    assert (F4 : forall x, sum (map (points x) (mem ob3)) + refs B s4 x = refs B s3 x).
    { intros x. pose proof (refs_set B s3 o ob3 ob4 x Ho3) as X. unfold orefs in X. rewrite S3 in X. cbn [ob4 st] in X.
      rewrite (isum_ext _ (fun _ p => points x p)) in X by (intros i a _; apply slot_free; apply HB). rewrite isum_const in X. fold s4 in X. lia. }
      apply inv_ext with (T := fun x => E x + refs B s3 x).
      { intros x. cbv beta. rewrite sum_map_rev. specialize (F4 x). lia. }
      clear F4. split.
      * intros i b Hi Ab. rewrite N4 in Hi. destruct (Nat.eqb_spec o i) as [<-|Hne]; [injection Hi as <-; discriminate|].
        exact (i_rc _ _ _ _ _ _ H3 i b Hi Ab).
      * intros i Hi. rewrite N4. destruct (i_tgt _ _ _ _ _ _ H3 i Hi) as (b & Hb & Ab). destruct (Nat.eqb_spec o i) as [<-|Hne]; [congruence|eauto].
      * intros i. rewrite N4, (i_nb _ _ _ _ _ _ H3 i). destruct (Nat.eqb_spec o i) as [<-|Hne]; [|tauto].
        split; intros (b & Hb & Ab & _); [congruence|injection Hb as <-; discriminate].
      * exact (i_nbnd _ _ _ _ _ _ H3).
      * intros i z Hz'. cbn [In]. rewrite N4. destruct (Nat.eqb_spec o i) as [<-|Hne].
        -- split; [intros [X|X]; [injection X as <-; eauto|exfalso; exact (HnD z Hz' X)]|]. intros (b & Hb & Zb). injection Hb as <-. cbn in Zb. subst z. auto.
        -- rewrite <- (i_dy _ _ _ _ _ _ H3 i z Hz'). cbn [In]. split; intros [X|X]; try congruence; auto.
      * intros i. unfold s4 at 1. cbn [set_obj log]. rewrite (i_dead _ _ _ _ _ _ H3 i), N4. destruct (Nat.eqb_spec o i) as [<-|Hne]; [|tauto].
        split; intros (b & Hb & Zb); [congruence|injection Hb as <-; discriminate].
      * exact (i_nd _ _ _ _ _ _ H3).
      * exact (i_ng _ _ _ _ _ _ H3).
      * intros i b Hi Ab. rewrite N4 in Hi. destruct (Nat.eqb_spec o i) as [<-|Hne]; [injection Hi as <-; destruct Ab; discriminate|].
        exact (i_nm _ _ _ _ _ _ H3 i b Hi Ab).
Qed.
Lemma rel_dead B s5 E D nb o ob5 : inv s5 (fun x => E x + refs B s5 x) ((o, Ending) :: D) nb -> nth_error (objs s5) o = Some ob5 -> st ob5 = Ending ->
  (forall z, z = Dying \/ z = Ending -> ~ In (o, z) D) ->
  let s6 := World (upd (objs s5) o (Obj (rc ob5) Dead (cls ob5) [])) (globs s5) (o :: log s5) in inv s6 (fun x => E x + refs B s6 x) D nb.
Proof.
  intros H5 Ho5 S5 HnD. cbv zeta. assert (Hlt5 := nth_lt _ _ _ Ho5).
      set (ob6 := Obj (rc ob5) Dead (cls ob5) []).
      assert (N6 : forall i, nth_error (upd (objs s5) o ob6) i = if o =? i then Some ob6 else nth_error (objs s5) i)
        by (intros i; exact (set_nth s5 o ob6 i Hlt5)).
      assert (F6 : forall x, refs B (World (upd (objs s5) o ob6) (globs s5) (o :: log s5)) x = refs B s5 x).
      { intros x. pose proof (refs_set B s5 o ob5 ob6 x Ho5) as X. unfold orefs in X. rewrite S5 in X. cbn [ob6 st] in X.
        change (refs B (World (upd (objs s5) o ob6) (globs s5) (o :: log s5)) x) with (refs B (set_obj s5 o ob6) x). lia. }
      apply inv_ext with (T := fun x => E x + refs B s5 x). { intros x. now rewrite F6. }
      split; cbn [objs globs log].
      * intros i b Hi Ab. rewrite N6 in Hi. destruct (Nat.eqb_spec o i) as [<-|Hne]; [injection Hi as <-; discriminate|].
        exact (i_rc _ _ _ _ _ _ H5 i b Hi Ab).
      * intros i Hi. rewrite N6. destruct (i_tgt _ _ _ _ _ _ H5 i Hi) as (b & Hb & Ab). destruct (Nat.eqb_spec o i) as [<-|Hne]; [congruence|eauto].
      * intros i. rewrite N6, (i_nb _ _ _ _ _ _ H5 i). destruct (Nat.eqb_spec o i) as [<-|Hne]; [|tauto].
        split; intros (b & Hb & Ab & _); [congruence|injection Hb as <-; discriminate].
      * exact (i_nbnd _ _ _ _ _ _ H5).
      * intros i z Hz'. rewrite N6. destruct (Nat.eqb_spec o i) as [<-|Hne].
        -- split; [intros X; exfalso; exact (HnD z Hz' X)|]. intros (b & Hb & Zb). injection Hb as <-. cbn in Zb. destruct Hz'; congruence.
        -- rewrite <- (i_dy _ _ _ _ _ _ H5 i z Hz'). cbn [In]. split; [auto|]. intros [X|X]; [congruence|exact X].
      * intros i. cbn [In]. rewrite N6, (i_dead _ _ _ _ _ _ H5 i). destruct (Nat.eqb_spec o i) as [<-|Hne].
        -- split; [intros _; eauto|auto].
        -- split; [intros [X|X]; [congruence|exact X]|auto].
      * constructor; [|exact (i_nd _ _ _ _ _ _ H5)]. intros X. apply (i_dead _ _ _ _ _ _ H5) in X. destruct X as (b & Hb & Sb). congruence.
      * exact (i_ng _ _ _ _ _ _ H5).
      * intros i b Hi Ab. rewrite N6 in Hi. destruct (Nat.eqb_spec o i) as [<-|Hne]; [injection Hi as <-; destruct Ab; discriminate|].
        exact (i_nm _ _ _ _ _ _ H5 i b Hi Ab).
Qed.

Lemma good_assigning c l E D : good c E D -> sloc E D l -> good (assigning c l) E D.
Proof.
  intros [Gb Gp] Hl. split; [|exact Gp]. intros o j. rewrite bz_assigning. unfold addB.
  destruct (loc_eqb_spec (LM o j) l) as [<-|]; [intros _; exact (proj2 Hl)|apply Gb].
Qed.
Lemma put_ok B s E D nb l q : inv s (fun x => E x + refs (addB l B) s x) D nb -> sloc E D l -> B l = false ->
  (forall o, q = Some o -> 0 < E o + refs (addB l B) s o) ->
  post (put s l q) (fun s' => inv s' (fun x => E x + refs B s' x) D nb).
Proof.
  intros H Hl Hb Hq. unfold put.
  destruct (write_ok ng nm _ _ _ _ l q H) as (s1 & -> & H1 & R1 & _ & F1). { eapply sloc_vloc with (E := E); [exact H| |exact Hl]. intros; cbv beta; lia. }
  cbn [bind]. destruct (add_ref_ok ng nm _ _ _ _ q H1) as (s2 & -> & H2 & F2 & R2); [exact Hq|]. cbn [post].
  eapply inv_ext; [|exact H2]. intros x. cbv beta. rewrite <- (F1 (addB l B)) by apply addB_same. rewrite F2.
  rewrite (refs_busy B s1 l q x R1 Hb). lia.
Qed.
Lemma put_new_ok B s E D nb l n : inv s (fun x => E x + refs (addB l B) s x) D (n :: nb) -> sloc E D l -> B l = false ->
  post (put s l (Some n)) (fun s' => inv s' (fun x => E x + refs B s' x) D nb).
Proof.
  intros H Hl Hb. unfold put.
  destruct (write_ok ng nm _ _ _ _ l (Some n) H) as (s1 & -> & H1 & R1 & _ & F1). { eapply sloc_vloc with (E := E); [exact H| |exact Hl]. intros; cbv beta; lia. }
  cbn [bind]. destruct (add_ref_new ng nm _ _ _ _ n H1) as (s2 & -> & H2 & F2 & R2). cbn [post].
  eapply inv_ext; [|exact H2]. intros x. cbv beta. rewrite <- (F1 (addB l B)) by apply addB_same. rewrite F2.
  rewrite (refs_busy B s1 l (Some n) x R1 Hb). lia.
Qed.
Lemma read_pos B s E D nb l q : inv s (fun x => E x + refs B s x) D nb -> read s l = Ok q -> B l = false ->
  forall o, q = Some o -> 0 < E o + refs B s o.
Proof. intros H R Hb o ->. pose proof (refs_points B s o l (Some o) R Hb) as X. rewrite points_refl in X. lia. Qed.
Lemma copies_ok c E D nb : okt c D -> forall ms s, inv s (fun x => E x + refs (bz c) s x) D nb ->
  Forall (path_ok ng nm (ist c)) ms ->
  post (copies true c s ms) (fun '(s', qs) => length qs = length ms /\ inv s' (fun x => E x + sum (map (points x) qs) + refs (bz c) s' x) D nb).
Proof.
  intros Ht. assert (G : forall ms s X, inv s (fun x => E x + X x + refs (bz c) s x) D nb -> Forall (path_ok ng nm (ist c)) ms ->
    post (copies true c s ms) (fun '(s', qs) => length qs = length ms /\ inv s' (fun x => E x + X x + sum (map (points x) qs) + refs (bz c) s' x) D nb)).
  { induction ms as [|m ms IH]; intros s X H F; cbn [copies].
    - cbn [post]. split; [reflexivity|]. eapply inv_ext; [|exact H]. intros x. cbn. lia.
    - inversion F as [|? ? Fm Fs]; subst. destruct (res_ok c E D m Ht Fm) as (l & -> & Hl). cbn [bind].
      eapply post_bind; [apply touch_post|]. intros [] Hb; cbv beta in Hb.
      destruct (read_ok ng nm _ _ _ _ l H) as [q Hq]. { eapply sloc_vloc with (E := E); [exact H| |exact Hl]. intros; cbv beta; lia. }
      rewrite Hq. cbn [bind].
      destruct (add_ref_ok ng nm _ _ _ _ q H) as (s2 & -> & H2 & F2 & R2).
      { intros o Eo. pose proof (refs_points (bz c) s o l q Hq Hb) as Y. rewrite Eo, points_refl in Y. lia. }
      cbn [bind]. eapply post_bind; [apply (IH s2 (fun x => X x + points x q))|].
      + eapply inv_ext; [|exact H2]. intros x. cbv beta. rewrite F2. lia.
      + exact Fs.
      + intros [s3 qs] [L3 H3]. cbn [post]. split; [cbn; lia|]. eapply inv_ext; [|exact H3]. intros x. cbn. fold (sum (map (points x) qs)). lia. }
  intros ms s H F. eapply post_weaken; [apply (G ms s (fun _ => 0))|]; auto.
  - eapply inv_ext; [|exact H]. intros x. cbv beta. lia.
  - intros [s' qs] [L H']. split; [exact L|]. eapply inv_ext; [|exact H']. intros x. cbv beta. lia.
Qed.
Lemma alloc_ok B s E D nb k qs : inv s (fun x => E x + sum (map (points x) qs) + refs B s x) D nb -> length qs = nm -> okb B E D ->
  let s' := World (objs s ++ [Obj 0 Alive k qs]) (globs s) (log s) in
  inv s' (fun x => E x + refs B s' x) D (length (objs s) :: nb).
Proof.
  intros H L Gb. cbv zeta. set (n := length (objs s)). set (ob := Obj 0 Alive k qs).
  assert (Hn : forall i b, nth_error (objs s ++ [ob]) i = Some b <-> (nth_error (objs s) i = Some b \/ (i = n /\ b = ob))).
  { intros i b. destruct (Nat.lt_ge_cases i n) as [Hi|Hi].
    - rewrite nth_error_app1 by exact Hi. split; [auto|]. intros [X|[X _]]; [exact X|lia].
    - rewrite nth_error_app2 by exact Hi. rewrite (proj2 (nth_error_None (objs s) i)) by exact Hi. fold n.
      destruct (i - n) as [|d] eqn:Ed; cbn.
      + split; [intros [= <-]; right; split; [lia|reflexivity]|]. intros [X|[_ ->]]; congruence.
      + split; [destruct d; discriminate|]. intros [X|[X _]]; [discriminate|lia]. }
  assert (Hnone : nth_error (objs s) n = None) by (apply nth_error_None; unfold n; lia).
  assert (Hno : forall T, inv s T D nb -> forall j, B (LM n j) = true -> 0 < E n -> 0 < T n -> False).
  { intros T HT j _ _ Hp. destruct (i_tgt _ _ _ _ _ _ HT n Hp) as (b & Hb & _). congruence. }
  assert (HB : forall j, B (LM n j) = false).
  { intros j. destruct (B (LM n j)) eqn:X; [|reflexivity]. exfalso. destruct (Gb n j X) as [Hd|He].
    - apply (i_dy _ _ _ _ _ _ H n Dying (or_introl eq_refl)) in Hd. destruct Hd as (b & Hb & _). congruence.
    - destruct (i_tgt _ _ _ _ _ _ H n) as (b & Hb & _); [lia|congruence]. }
  assert (HT : forall x, E x + refs B (World (objs s ++ [ob]) (globs s) (log s)) x = E x + sum (map (points x) qs) + refs B s x).
  { intros x. unfold refs. cbn [objs globs]. unfold mrefs. rewrite isum_app. cbn [isum Nat.add]. fold n. unfold orefs at 2. cbn [ob st mem].
    rewrite (isum_ext _ (fun _ p => points x p)) by (intros i a _; apply slot_free; apply HB). rewrite isum_const. lia. }
  assert (H' : inv s (fun x => E x + refs B (World (objs s ++ [ob]) (globs s) (log s)) x) D nb).
  { eapply inv_ext; [|exact H]. intros x. cbv beta. now rewrite HT. }
  clear H HT. set (T := fun x => E x + refs B (World (objs s ++ [ob]) (globs s) (log s)) x) in *.
  assert (Tn : T n = 0).
  { destruct (T n) eqn:X; [reflexivity|]. destruct (i_tgt _ _ _ _ _ _ H' n) as (b & Hb & _); [lia|congruence]. }
  split; cbn [objs globs log].
  - intros o b Hb A. apply Hn in Hb. destruct Hb as [Hb|[-> ->]]; [exact (i_rc _ _ _ _ _ _ H' o b Hb A)|]. cbn. now rewrite Tn.
  - intros o Ho. destruct (i_tgt _ _ _ _ _ _ H' o Ho) as (b & Hb & A). exists b. split; [apply Hn; auto|exact A].
  - intros o. cbn [In]. rewrite (i_nb _ _ _ _ _ _ H' o). split.
    + intros [<-|(b & Hb & X)]; [exists ob; split; [apply Hn; auto|auto]|exists b; split; [apply Hn; auto|exact X]].
    + intros (b & Hb & X). apply Hn in Hb. destruct Hb as [Hb|[-> ->]]; [right; eauto|auto].
  - constructor; [|exact (i_nbnd _ _ _ _ _ _ H')]. intros X. apply (i_nb _ _ _ _ _ _ H') in X. destruct X as (b & Hb & _). congruence.
  - intros o z Hz. rewrite (i_dy _ _ _ _ _ _ H' o z Hz). split; intros (b & Hb & X).
    + exists b. split; [apply Hn; auto|exact X].
    + apply Hn in Hb. destruct Hb as [Hb|[-> ->]]; [eauto|]. cbn in X. destruct Hz; congruence.
  - intros o. rewrite (i_dead _ _ _ _ _ _ H' o). split; intros (b & Hb & X).
    + exists b. split; [apply Hn; auto|exact X].
    + apply Hn in Hb. destruct Hb as [Hb|[-> ->]]; [eauto|]. discriminate.
  - exact (i_nd _ _ _ _ _ _ H').
  - exact (i_ng _ _ _ _ _ _ H').
  - intros o b Hb A. apply Hn in Hb. destruct Hb as [Hb|[-> ->]]; [exact (i_nm _ _ _ _ _ _ H' o b Hb A)|exact L].
Qed.
Lemma cmd_ok_inv th k : cmd_ok ng nm th k ->
  match k with
  | Null l => path_ok ng nm th l
  | New l _ ms => path_ok ng nm th l /\ Forall (path_ok ng nm th) ms /\ length ms = nm
  | Copy l m | CopyRaw l m | Move l m => path_ok ng nm th l /\ path_ok ng nm th m
  | Hold m body => path_ok ng nm th m /\ forall k, In k body -> cmd_ok ng nm th k
  | Store v j m => v < ng /\ j < nm /\ path_ok ng nm th m
  end.
Proof. intros H; inversion H; subst; auto. Qed.

Variables (debug : bool) (wrap : nat) (script : nat -> list cmd).
Hypothesis Hscript : forall c k, In k (script c) -> cmd_ok ng nm true k.

Section Given.
Variables (EX : ctx -> world -> list cmd -> outcome world) (RL : ctx -> world -> nat -> outcome world).
Hypothesis HEX : forall c s E D nb ks, inv s (fun x => E x + refs (bz c) s x) D nb -> good c E D -> okt c D ->
  (forall k, In k ks -> cmd_ok ng nm (ist c) k) -> post (EX c s ks) (fun s' => inv s' (fun x => E x + refs (bz c) s' x) D nb).
Hypothesis HRL : forall c s E D nb o, inv s (fun x => E x + points x (Some o) + refs (bz c) s x) D nb -> good c E D ->
  post (RL c s o) (fun s' => inv s' (fun x => E x + refs (bz c) s' x) D nb).

Lemma relp_ok c s E D nb q : inv s (fun x => E x + points x q + refs (bz c) s x) D nb -> good c E D ->
  post (relp RL c s q) (fun s' => inv s' (fun x => E x + refs (bz c) s' x) D nb).
Proof.
  intros H G. destruct q as [o|]; cbn [relp]; [now apply HRL|]. cbn [post]. eapply inv_ext; [|exact H]. intros x. cbn. lia.
Qed.
Lemma release_old_ok c s E D nb l : inv s (fun x => E x + refs (bz c) s x) D nb -> good c E D -> sloc E D l ->
  post (release_old true RL c s l) (fun s' => bz c l = false /\ inv s' (fun x => E x + refs (addB l (bz c)) s' x) D nb).
Proof.
  intros H G Hl. unfold release_old. eapply post_bind; [apply touch_post|]. intros [] Hb; cbv beta in Hb.
  destruct (read_ok ng nm _ _ _ _ l H) as [p Hp]. { eapply sloc_vloc with (E := E); [exact H| |exact Hl]. intros; cbv beta; lia. }
  rewrite Hp. cbn [bind]. eapply post_weaken; [apply relp_ok with (E := E) (D := D) (nb := nb)|].
  - eapply inv_ext; [|exact H]. intros x. cbv beta. rewrite (refs_busy (bz c) s l p x Hp Hb).
    change (refs (bz (assigning c l)) s x) with (refs (addB l (bz c)) s x). lia.
  - now apply good_assigning.
  - intros s' H'. split; [exact Hb|exact H'].
Qed.

Lemma copy_assign_ok c s E D nb l m : inv s (fun x => E x + refs (bz c) s x) D nb -> good c E D -> sloc E D l -> sloc E D m ->
  post (copy_assign true RL c s l m) (fun s' => inv s' (fun x => E x + refs (bz c) s' x) D nb).
Proof.
  intros H G Hl Hm. unfold copy_assign. eapply post_bind; [now apply release_old_ok with (E := E) (D := D) (nb := nb)|].
  intros s1 [Hb H1]. eapply post_bind; [apply touch_post|]. intros [] Hb2; cbv beta in Hb2. change (bz (assigning c l) m) with (addB l (bz c) m) in Hb2.
  destruct (read_ok ng nm _ _ _ _ m H1) as [q Hq]. { eapply sloc_vloc with (E := E); [exact H1| |exact Hm]. intros; cbv beta; lia. }
  rewrite Hq. cbn [bind]. apply put_ok; auto. eapply read_pos; eauto.
Qed.
(** Construction of a new object from references taken for its members. *)

Lemma step_ok c s E D nb k : inv s (fun x => E x + refs (bz c) s x) D nb -> good c E D -> okt c D -> cmd_ok ng nm (ist c) k ->
  post (step true EX RL c s k) (fun s' => inv s' (fun x => E x + refs (bz c) s' x) D nb).
Proof.
  intros H G Ht Hk. apply cmd_ok_inv in Hk. destruct k as [l|l k ms|l m|l m|l m|m body|v j m]; cbn [step];
    [rename Hk into K1|destruct Hk as (K1 & K2 & K3)|destruct Hk as (K1 & K2)|destruct Hk as (K1 & K2)|destruct Hk as (K1 & K2)|destruct Hk as (K1 & K2)|destruct Hk as (K1 & K2 & K3)].
  - destruct (res_ok c E D l Ht) as (l' & -> & Hl); [assumption|]. cbn [bind].
    eapply post_bind; [now apply release_old_ok with (E := E) (D := D) (nb := nb)|]. intros s1 [Hb H1].
    apply put_ok; auto. intros o [=].
  - eapply post_bind; [apply (copies_ok c E D nb Ht ms s H); assumption|]. intros [s1 qs] [Lq H1]. cbv zeta.
    pose proof (alloc_ok (bz c) s1 E D nb k qs H1 ltac:(congruence) (proj1 G)) as H2. cbv zeta in H2.
    destruct (res_ok c E D l Ht) as (l' & -> & Hl); [assumption|]. cbn [bind].
    eapply post_bind; [now apply release_old_ok with (E := E) (D := D) (nb := length (objs s1) :: nb)|]. intros s2 [Hb H3].
    apply put_new_ok; auto.
  - destruct (res_ok c E D l Ht) as (l' & -> & Hl); [assumption|]. destruct (res_ok c E D m Ht) as (m' & -> & Hm); [assumption|]. cbn [bind].
    now apply copy_assign_ok.
  - destruct (res_ok c E D m Ht) as (m' & -> & Hm); [assumption|]. cbn [bind]. eapply post_bind; [apply touch_post|]. intros [] Hb; cbv beta in Hb.
    destruct (read_ok ng nm _ _ _ _ m' H) as [q Hq]. { eapply sloc_vloc with (E := E); [exact H| |exact Hm]. intros; cbv beta; lia. }
    rewrite Hq. cbn [bind]. eapply post_bind; [apply (pinned_post c q E (proj2 G))|]. intros [] Hp; cbv beta in Hp.
    destruct (res_ok c E D l Ht) as (l' & -> & Hl); [assumption|]. cbn [bind].
    eapply post_bind; [now apply release_old_ok with (E := E) (D := D) (nb := nb)|]. intros s1 [Hb1 H1].
    apply put_ok; auto. intros o Eo. specialize (Hp o Eo). lia.
  - destruct (res_ok c E D l Ht) as (l' & -> & Hl); [assumption|]. destruct (res_ok c E D m Ht) as (m' & -> & Hm); [assumption|]. cbn [bind].
    eapply post_bind; [now apply release_old_ok with (E := E) (D := D) (nb := nb)|]. intros s1 [Hb H1].
    eapply post_bind; [apply touch_post|]. intros [] Hb2; cbv beta in Hb2. change (bz (assigning c l') m') with (addB l' (bz c) m') in Hb2.
    destruct (read_ok ng nm _ _ _ _ m' H1) as [q Hq]. { eapply sloc_vloc with (E := E); [exact H1| |exact Hm]. intros; cbv beta; lia. }
    rewrite Hq. cbn [bind].
    assert (Hne : m' <> l') by (intros ->; rewrite addB_same in Hb2; discriminate).
    destruct (write_ok ng nm _ _ _ _ l' q H1) as (s2 & -> & H2 & R2 & N2 & F2). { eapply sloc_vloc with (E := E); [exact H1| |exact Hl]. intros; cbv beta; lia. }
    cbn [bind].
    destruct (write_ok ng nm _ _ _ _ m' None H2) as (s3 & -> & H3 & R3 & N3 & F3). { eapply sloc_vloc with (E := E); [exact H2| |exact Hm]. intros; cbv beta; lia. }
    cbn [post]. eapply inv_ext; [|exact H3]. intros x. cbv beta.
    (* refs (bz c) s3 = refs (l :: m :: bz c) + points q; refs (l :: bz c) s1 = the same *)
    assert (Hl3 : read s3 l' = Ok q) by (rewrite N3 by congruence; exact R2).
    rewrite (refs_busy (bz c) s3 l' q x Hl3 Hb).
    rewrite (refs_busy (addB l' (bz c)) s3 m' None x R3 Hb2).
    rewrite (refs_busy (addB l' (bz c)) s1 m' q x Hq Hb2).
    rewrite (F3 (addB m' (addB l' (bz c)))) by apply addB_same.
    rewrite (F2 (addB m' (addB l' (bz c)))) by (rewrite addB_ne by congruence; apply addB_same).
    cbn. lia.
  - destruct (res_ok c E D m Ht) as (m' & -> & Hm); [assumption|]. cbn [bind]. eapply post_bind; [apply touch_post|]. intros [] Hb; cbv beta in Hb.
    destruct (read_ok ng nm _ _ _ _ m' H) as [q Hq]. { eapply sloc_vloc with (E := E); [exact H| |exact Hm]. intros; cbv beta; lia. }
    rewrite Hq. cbn [bind].
    destruct (add_ref_ok ng nm _ _ _ _ q H) as (s1 & -> & H1 & F1 & R1). { eapply read_pos; eauto. }
    cbn [bind]. eapply post_bind; [apply HEX with (E := fun x => E x + points x q) (D := D) (nb := nb)|].
    + eapply inv_ext; [|exact H1]. intros x. cbv beta. change (bz (Ctx (this c) (busy c) (q :: pins c))) with (bz c). rewrite F1. lia.
    + destruct G as [Gb Gp]. split; [intros o j X; destruct (Gb o j X); [auto|right; lia]|].
      intros z [->|Hz]; [rewrite points_refl; lia|]. specialize (Gp z Hz). lia.
    + exact Ht.
    + cbn [this]. assumption.
    + intros s2 H2. apply relp_ok; [exact H2|exact G].
  - destruct (res_ok c E D m Ht) as (m' & -> & Hm); [assumption|]. cbn [bind]. eapply post_bind; [apply touch_post|]. intros [] Hb; cbv beta in Hb.
    destruct (read_ok ng nm _ _ _ _ (LG v) H) as [g Hg]; [assumption|]. rewrite Hg. cbn [bind].
    destruct g as [o|]; [|exact H]. eapply post_bind; [apply (pinned_post c (Some o) E (proj2 G))|]. intros [] Hp; cbv beta in Hp.
    apply copy_assign_ok; auto. split; [assumption|]. right. now apply Hp.
Qed.

Lemma drop_ok c D nb : forall qs s E, inv s (fun x => E x + sum (map (points x) qs) + refs (bz c) s x) D nb -> good c E D ->
  post (drop_members RL c s qs) (fun s' => inv s' (fun x => E x + refs (bz c) s' x) D nb).
Proof.
  induction qs as [|q qs IH]; intros s E H G; cbn [drop_members].
  - cbn [post]. eapply inv_ext; [|exact H]. intros x. cbn. lia.
  - eapply post_bind; [apply relp_ok with (E := fun x => E x + sum (map (points x) qs)) (D := D) (nb := nb)|].
    + eapply inv_ext; [|exact H]. intros x. cbn. fold (sum (map (points x) qs)). lia.
    + destruct G as [Gb Gp]. split; [intros o j X; destruct (Gb o j X); [auto|right; lia]|]. intros z Hz. specialize (Gp z Hz). lia.
    + intros s1 H1. now apply IH.
Qed.

Lemma release_ok c s E D nb o : inv s (fun x => E x + points x (Some o) + refs (bz c) s x) D nb -> good c E D ->
  post (release debug wrap script EX RL c s o) (fun s' => inv s' (fun x => E x + refs (bz c) s' x) D nb).
Proof.
  intros H G. unfold release. destruct (i_tgt _ _ _ _ _ _ H o) as (ob & Ho & A). { rewrite points_refl. lia. }
  rewrite (slot_get_ok _ _ _ Ho). cbn [bind]. pose proof (i_rc _ _ _ _ _ _ H o ob Ho A) as Hr. cbv beta in Hr. rewrite points_refl in Hr.
  rewrite A. destruct (rc ob) as [|n] eqn:Er; [lia|].
  unfold assert_. change (0 <? S n) with true. rewrite andb_false_r. cbn [bind].
  destruct (n =? 0) eqn:En.
  2:{ apply Nat.eqb_neq in En. cbn [post]. now apply rel_dec. }
  apply Nat.eqb_eq in En. subst n.
  assert (HnD : forall z, z = Dying \/ z = Ending -> ~ In (o, z) D) by (eapply alive_notD; eauto).
  assert (HB : forall j, bz c (LM o j) = false) by (apply (last_not_busy (bz c) s E D nb o ob); auto; exact (proj1 G)).
  set (s1 := set_obj s o (Obj 0 Alive (cls ob) (mem ob))).
  assert (Ho1 : nth_error (objs s1) o = Some (Obj 0 Alive (cls ob) (mem ob))) by (unfold s1; rewrite set_nth, Nat.eqb_refl by (eapply nth_lt; eauto); reflexivity).
  unfold destroy. rewrite (slot_get_ok _ _ _ Ho1). cbn [bind st rc cls mem].
  pose proof (rel_dying (bz c) s E D nb o ob H Ho A Er) as H2. fold s1 in H2.
  eapply post_bind; [apply HEX with (c := Ctx (Some o) (busy c) (pins c)) (E := E) (D := (o, Dying) :: D) (nb := nb)|].
  - exact H2.
  - destruct G as [Gb Gp]. split; [|exact Gp]. intros y j X. destruct (Gb y j X); [left; now right|auto].
  - intros y [= <-]. now left.
  - intros k Hk. cbn [ist this]. exact (Hscript _ k Hk).
  - intros s3 H3. change (bz (Ctx (Some o) (busy c) (pins c))) with (bz c) in H3.
    destruct (proj1 (i_dy _ _ _ _ _ _ H3 o Dying (or_introl eq_refl)) (or_introl eq_refl)) as (ob3 & Ho3 & S3).
    rewrite (slot_get_ok _ _ _ Ho3). cbn [bind].
    pose proof (rel_ending (bz c) s3 E D nb o ob3 H3 Ho3 S3 HnD HB) as H4. cbv zeta in H4.
    eapply post_bind; [apply (drop_ok (Ctx None (busy c) (pins c)) ((o, Ending) :: D) nb (rev (mem ob3)) _ E H4)|].
    + destruct G as [Gb Gp]. split; [|exact Gp]. intros y j X. destruct (Gb y j X); [left; now right|auto].
    + intros s5 H5. change (bz (Ctx None (busy c) (pins c))) with (bz c) in H5.
      destruct (proj1 (i_dy _ _ _ _ _ _ H5 o Ending (or_intror eq_refl)) (or_introl eq_refl)) as (ob5 & Ho5 & S5).
      rewrite (slot_get_ok _ _ _ Ho5). cbn [bind post]. now apply rel_dead.
Qed.
End Given.

Lemma machine_ok : forall f,
  (forall c s E D nb ks, inv s (fun x => E x + refs (bz c) s x) D nb -> good c E D -> okt c D ->
     (forall k, In k ks -> cmd_ok ng nm (ist c) k) ->
     post (exec debug wrap true script f c s ks) (fun s' => inv s' (fun x => E x + refs (bz c) s' x) D nb)) /\
  (forall c s E D nb o, inv s (fun x => E x + points x (Some o) + refs (bz c) s x) D nb -> good c E D ->
     post (rel debug wrap true script f c s o) (fun s' => inv s' (fun x => E x + refs (bz c) s' x) D nb)).
Proof.
  induction f as [|f [IHe IHr]]; [split; intros; exact Logic.I|]. split.
  - intros c s E D nb ks H G Ht Hk. cbn [exec]. destruct ks as [|k ks]; [exact H|].
    eapply post_bind; [apply (step_ok _ _ IHe IHr c s E D nb k); auto; apply Hk; now left|].
    intros s1 H1. apply IHe; auto. intros k' Hk'. apply Hk. now right.
  - intros c s E D nb o H G. cbn [rel]. now apply release_ok.
Qed.
End S.

Lemma start_inv ng nm : inv ng nm (start ng) (fun x => 0 + refs (bz main_ctx) (start ng) x) [] [].
Proof.
  assert (Z : forall x, refs (bz main_ctx) (start ng) x = 0).
  { intros x. unfold refs, mrefs, start. cbn [objs globs isum]. rewrite Nat.add_0_r. unfold grefs. generalize 0 at 1.
    induction ng as [|n IH]; intros k; cbn [repeat isum]; [reflexivity|]. rewrite IH. reflexivity. }
  split; cbn [start objs globs log].
  - intros [|o] ob H; discriminate.
  - intros o H. fold (start ng) in H. rewrite Z in H. cbn in H. lia.
  - intros o. split; [intros []|]. intros (ob & H & _). destruct o; discriminate.
  - constructor.
  - intros o z _. split; [intros []|]. intros (ob & H & _). destruct o; discriminate.
  - intros o. split; [intros []|]. intros (ob & H & _). destruct o; discriminate.
  - constructor.
  - apply repeat_length.
  - intros [|o] ob H; discriminate.
Qed.
Lemma refs_main D nb T s ng nm : inv ng nm s T D nb -> D = [] -> forall x, refs (bz main_ctx) s x = handles s x.
Proof.
  intros H -> x. unfold refs, handles. f_equal.
  - unfold grefs. rewrite <- (isum_const (points x) (globs s) 0). apply isum_ext. intros; now apply slot_free.
  - unfold mrefs. rewrite <- (isum_const _ (objs s) 0). apply isum_ext. intros i ob Hi. unfold orefs. cbn [Nat.add].
    destruct (st ob) eqn:S; try reflexivity.
    + rewrite <- (isum_const (points x) (mem ob) 0). apply isum_ext. intros; now apply slot_free.
    + exfalso. exact (proj2 (i_dy _ _ _ _ _ _ H i Dying (or_introl eq_refl)) (ex_intro _ ob (conj Hi S))).
Qed.
Lemma inv_balanced s ng nm : inv ng nm s (fun x => 0 + refs (bz main_ctx) s x) [] [] -> balanced s.
Proof.
  intros H0. assert (Hr := refs_main _ _ _ _ _ _ H0 eq_refl).
  assert (H : inv ng nm s (handles s) [] []) by (eapply inv_ext; [|exact H0]; intros o; cbv beta; rewrite Hr; reflexivity). clear H0 Hr.
  split; [|split; [|split]].
  - intros o ob Ho. destruct (st ob) eqn:S.
    + left. pose proof (i_rc _ _ _ _ _ _ H o ob Ho S) as R. split; [reflexivity|]. split; [exact R|]. split.
      * destruct (handles s o) eqn:Z; [|lia]. exfalso. apply (proj2 (i_nb _ _ _ _ _ _ H o)). eauto.
      * intros X. apply (i_dead _ _ _ _ _ _ H) in X. destruct X as (b & Hb & Sb). congruence.
    + exfalso. exact (proj2 (i_dy _ _ _ _ _ _ H o Dying (or_introl eq_refl)) (ex_intro _ ob (conj Ho S))).
    + exfalso. exact (proj2 (i_dy _ _ _ _ _ _ H o Ending (or_intror eq_refl)) (ex_intro _ ob (conj Ho S))).
    + right. split; [reflexivity|]. split.
      * destruct (handles s o) eqn:Z; [reflexivity|]. destruct (i_tgt _ _ _ _ _ _ H o) as (b & Hb & Ab); [lia|congruence].
      * apply (i_dead _ _ _ _ _ _ H). eauto.
  - intros o Hp. destruct (i_tgt _ _ _ _ _ _ H o Hp) as (b & Hb & _). eapply nth_lt; eauto.
  - intros o Ho. apply (i_dead _ _ _ _ _ _ H) in Ho. destruct Ho as (b & Hb & _). eapply nth_lt; eauto.
  - exact (i_nd _ _ _ _ _ _ H).
Qed.
