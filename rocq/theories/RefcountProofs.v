(** Reference-counting invariants. *)
From Verif Require Import Base BitsProofs RefcountModel RefcountSpec.

(** ** Counting *)
Definition contrib (ob : obj) (o : nat) : nat := match st ob with Alive => sum (map (is_ref o) (flds ob)) | _ => 0 end.
Definition vcontrib (x : option var) (o : nat) : nat := match x with Some w => is_ref o (ptr_of w) | None => 0 end.

Lemma sum_cons a l : sum (a :: l) = a + sum l.
Proof. reflexivity. Qed.
Lemma sum_map_upd {A} (f : A -> nat) (l : list A) i x y :
  nth_error l i = Some y -> sum (map f (upd l i x)) + f y = sum (map f l) + f x.
Proof.
  revert i; induction l as [|a l IH]; intros [|i] H; cbn [nth_error] in H; try discriminate; cbn [upd map]; rewrite !sum_cons.
  - injection H as ->. lia.
  - specialize (IH _ H). lia.
Qed.
Lemma sum_map_app {A} (f : A -> nat) l1 l2 : sum (map f (l1 ++ l2)) = sum (map f l1) + sum (map f l2).
Proof. induction l1 as [|a l1 IH]; cbn [app map]; rewrite ?sum_cons; [reflexivity|lia]. Qed.
Lemma sum_map_rev {A} (f : A -> nat) l : sum (map f (rev l)) = sum (map f l).
Proof. induction l as [|a l IH]; cbn [rev]; [reflexivity|]. rewrite sum_map_app. cbn [map]. rewrite !sum_cons. cbn [sum fold_right]. lia. Qed.
Lemma sum_ge {A} (f : A -> nat) l x : In x l -> f x <= sum (map f l).
Proof. induction l as [|a l IH]; cbn [In map]; [tauto|]. rewrite sum_cons. intros [->|H]; [lia|]. specialize (IH H). lia. Qed.

Lemma member_refs_upd os i ob ob' o : nth_error os i = Some ob ->
  member_refs (upd os i ob') o + contrib ob o = member_refs os o + contrib ob' o.
Proof. intros H. unfold member_refs. exact (sum_map_upd (fun b => contrib b o) os i ob' ob H). Qed.
Lemma member_refs_app os ob o : member_refs (os ++ [ob]) o = member_refs os o + contrib ob o.
Proof. unfold member_refs. rewrite sum_map_app. cbn [map]. rewrite sum_cons. cbn [sum fold_right]. unfold contrib. lia. Qed.
Lemma is_ref_refl o : is_ref o (Some o) = 1.
Proof. cbn. now rewrite Nat.eqb_refl. Qed.
Lemma is_ref_ne o q : o <> q -> is_ref o (Some q) = 0.
Proof. intros H. cbn. destruct (Nat.eqb_spec o q); congruence. Qed.
Lemma is_ref_le o p : is_ref o p <= 1.
Proof. destruct p as [q|]; cbn; [destruct (o =? q)|]; lia. Qed.

Definition nalive (os : list obj) : nat := sum (map (fun ob => match st ob with Alive => 1 | _ => 0 end) os).
Lemma nalive_le os : nalive os <= length os.
Proof. unfold nalive. induction os as [|a os IH]; cbn [map length]; [cbn; lia|]. rewrite sum_cons. destruct (st a); lia. Qed.
Lemma nalive_upd os i ob ob' : nth_error os i = Some ob ->
  nalive (upd os i ob') + (match st ob with Alive => 1 | _ => 0 end) = nalive os + (match st ob' with Alive => 1 | _ => 0 end).
Proof. intros H. unfold nalive. exact (sum_map_upd (fun b => match st b with Alive => 1 | _ => 0 end) os i ob' ob H). Qed.

(** ** Heap invariant: [E] external references, [D] objects being destroyed, [nb] object not yet referenced *)
Definition halive (h : heap) (o : nat) : Prop := exists ob, nth_error (objs h) o = Some ob /\ st ob = Alive.
Record inv (h : heap) (E : nat -> nat) (D : list nat) (nb : option nat) : Prop := {
  i_rc : forall o ob, nth_error (objs h) o = Some ob -> st ob = Alive -> rc ob = E o + member_refs (objs h) o;
  i_tgt : forall o, 0 < E o + member_refs (objs h) o -> halive h o;
  i_pos : forall o ob, nth_error (objs h) o = Some ob -> st ob = Alive -> rc ob = 0 -> nb = Some o;
  i_dy : forall o, In o D <-> exists ob, nth_error (objs h) o = Some ob /\ st ob = Dying;
  i_dead : forall o, In o (log h) <-> exists ob, nth_error (objs h) o = Some ob /\ st ob = Dead;
  i_nd : NoDup (log h) }.

Lemma inv_ext h E E' D nb : (forall o, E o = E' o) -> inv h E D nb -> inv h E' D nb.
Proof. intros HE []. split; auto; intros; rewrite <- HE in *; eauto. Qed.

(** What a release keeps. *)
Definition mono (h h' : heap) : Prop :=
  length (objs h') = length (objs h) /\ nalive (objs h') <= nalive (objs h) /\
  forall i ob', nth_error (objs h') i = Some ob' -> st ob' = Alive ->
    exists ob, nth_error (objs h) i = Some ob /\ st ob = Alive /\ flds ob = flds ob'.
Lemma mono_refl h : mono h h.
Proof. split; [auto|]. split; [auto|]. eauto. Qed.
Lemma mono_trans a b c : mono a b -> mono b c -> mono a c.
Proof.
  intros (L1 & N1 & F1) (L2 & N2 & F2). split; [lia|]. split; [lia|]. intros i ob' H A.
  destruct (F2 _ _ H A) as (ob & Hb & Ab & Eb). destruct (F1 _ _ Hb Ab) as (ob0 & Ha & Aa & Ea).
  exists ob0. repeat split; auto. congruence.
Qed.

Section S.
Variable debug : bool.

Lemma get_alive_ok h o ob : nth_error (objs h) o = Some ob -> st ob = Alive -> get_alive h o = Ok ob.
Proof. intros H A. unfold get_alive. rewrite (slot_get_ok _ _ _ H). cbn [bind]. now rewrite A. Qed.

Lemma set_obj_nth h o ob i : o < length (objs h) ->
  nth_error (objs (set_obj h o ob)) i = if o =? i then Some ob else nth_error (objs h) i.
Proof.
  intros Ho. cbn. rewrite nth_error_upd. destruct (Nat.eqb_spec o i); cbn [andb]; [|reflexivity].
  destruct (Nat.ltb_spec o (length (objs h))); [reflexivity|lia].
Qed.

Lemma release_ok : forall fuel h E o D nb,
  inv h (fun x => E x + is_ref x (Some o)) D nb -> nalive (objs h) < fuel ->
  exists h', obj_Release debug fuel h o = Ok h' /\ inv h' E D nb /\ mono h h'.
Proof.
  induction fuel as [|f IH]; intros h E o D nb H Hf; [lia|].
  assert (Hlist : forall ps h E D, inv h (fun x => E x + sum (map (is_ref x) ps)) D nb -> nalive (objs h) < f ->
    exists h', release_list (obj_Release debug f) h ps = Ok h' /\ inv h' E D nb /\ mono h h').
  { clear - IH. induction ps as [|[q|] ps IHp]; intros h E D H Hf; cbn [release_list].
    - exists h. split; [reflexivity|]. split; [|apply mono_refl]. eapply inv_ext; [|exact H]. intros x. cbn. lia.
    - destruct (IH h (fun x => E x + sum (map (is_ref x) ps)) q D nb) as (h1 & -> & H1 & M1).
      + eapply inv_ext; [|exact H]. intros x. cbv beta. cbn [map]. rewrite sum_cons. lia.
      + exact Hf.
      + cbn [bind]. destruct (IHp h1 E D H1) as (h2 & -> & H2 & M2); [destruct M1 as (_ & N & _); lia|].
        exists h2. split; [reflexivity|]. split; [exact H2|]. eapply mono_trans; eauto.
    - apply IHp; [|exact Hf]. eapply inv_ext; [|exact H]. intros x. cbv beta. cbn [map]. rewrite sum_cons. cbn [is_ref]. lia. }
  destruct (i_tgt _ _ _ _ H o) as (ob & Hob & Aob). { rewrite is_ref_refl. lia. }
  pose proof (nth_error_Some (objs h) o) as Hlt. rewrite Hob in Hlt. assert (Ho : o < length (objs h)) by (apply Hlt; discriminate). clear Hlt.
  cbn [obj_Release]. rewrite (get_alive_ok _ _ _ Hob Aob). cbn [bind].
  pose proof (i_rc _ _ _ _ H o ob Hob Aob) as Hrc. cbv beta in Hrc. rewrite is_ref_refl in Hrc.
  destruct (rc ob) as [|[|n]] eqn:Er; [lia| |].
  - cbn [Nat.ltb]. change (0 <? 1) with true. unfold assert_. rewrite andb_false_r. cbn [bind].
    set (h1 := set_obj h o (Obj 0 Dying (flds ob))).
    assert (Hm : forall x, member_refs (objs h1) x + sum (map (is_ref x) (flds ob)) = member_refs (objs h) x).
    { intros x. pose proof (member_refs_upd (objs h) o ob (Obj 0 Dying (flds ob)) x Hob) as X.
      unfold contrib in X. rewrite Aob in X. cbn [st flds] in X. unfold h1, set_obj. cbn [objs]. lia. }
    destruct (Hlist (rev (flds ob)) h1 E (o :: D)) as (h2 & E2 & H2 & M2).
    { assert (Hn : forall i, nth_error (objs h1) i = if o =? i then Some (Obj 0 Dying (flds ob)) else nth_error (objs h) i)
        by (intros i; now apply set_obj_nth).
      split.
      - intros x obx Hx Ax. rewrite Hn in Hx. destruct (Nat.eqb_spec o x) as [<-|Hne]; [injection Hx as <-; discriminate|].
        rewrite (i_rc _ _ _ _ H x obx Hx Ax), is_ref_ne by auto. rewrite sum_map_rev. specialize (Hm x). lia.
      - intros x Hx. rewrite sum_map_rev in Hx. specialize (Hm x).
        destruct (Nat.eq_dec o x) as [<-|Hne]; [lia|].
        destruct (i_tgt _ _ _ _ H x) as (obx & Hox & Aox); [lia|]. exists obx. split; [|auto]. rewrite Hn.
        destruct (Nat.eqb_spec o x); congruence.
      - intros x obx Hx Ax. rewrite Hn in Hx. destruct (Nat.eqb_spec o x) as [<-|Hne]; [injection Hx as <-; discriminate|].
        eapply i_pos; eauto.
      - intros x. cbn [In]. rewrite (i_dy _ _ _ _ H x), Hn. destruct (Nat.eqb_spec o x) as [<-|Hne].
        + split; [intros _; eexists; split; reflexivity|auto].
        + split; [intros [->|X]; [contradiction|exact X]|auto].
      - intros x. change (log h1) with (log h). rewrite (i_dead _ _ _ _ H x), Hn. destruct (Nat.eqb_spec o x) as [<-|Hne]; [|tauto].
        split; intros (b & Hb & Sb); [rewrite Hob in Hb; congruence|injection Hb as <-; discriminate].
      - exact (i_nd _ _ _ _ H). }
    { pose proof (nalive_upd (objs h) o ob (Obj 0 Dying (flds ob)) Hob) as X. rewrite Aob in X. cbn [st] in X.
      unfold h1, set_obj. cbn [objs]. lia. }
    rewrite E2. cbn [bind]. destruct M2 as (L2 & N2 & F2).
    assert (Hd : exists b, nth_error (objs h2) o = Some b /\ st b = Dying) by (apply (i_dy _ _ _ _ H2 o); now left).
    destruct Hd as (b & Hb & Sb). unfold finish. rewrite (slot_get_ok _ _ _ Hb). cbn [bind]. rewrite Sb.
    eexists. split; [reflexivity|].
    assert (L1 : length (objs h1) = length (objs h)) by (unfold h1, set_obj; cbn; apply upd_length).
    assert (Hm2 : forall x, member_refs (upd (objs h2) o (Obj 0 Dead [])) x = member_refs (objs h2) x).
    { intros x. pose proof (member_refs_upd (objs h2) o b (Obj 0 Dead []) x Hb) as X. unfold contrib in X. rewrite Sb in X.
      cbn [st] in X. lia. }
    assert (Hn2 : forall i, nth_error (upd (objs h2) o (Obj 0 Dead [])) i = if o =? i then Some (Obj 0 Dead []) else nth_error (objs h2) i).
    { intros i. exact (set_obj_nth h2 o (Obj 0 Dead []) i ltac:(lia)). }
    assert (Hnotlog : ~ In o (log h2)).
    { intros X. apply (i_dead _ _ _ _ H2 o) in X as (b' & Hb' & Sb'). rewrite Hb in Hb'. congruence. }
    assert (HoD : ~ In o D).
    { intros X. apply (i_dy _ _ _ _ H o) in X as (b' & Hb' & Sb'). rewrite Hob in Hb'. congruence. }
    split; [split; cbn [objs log]|].
    + intros x obx Hx Ax. rewrite Hn2 in Hx. destruct (Nat.eqb_spec o x) as [<-|Hne]; [injection Hx as <-; discriminate|].
      rewrite Hm2. eapply i_rc; eauto.
    + intros x Hx. rewrite Hm2 in Hx. destruct (i_tgt _ _ _ _ H2 x Hx) as (obx & Hox & Aox). exists obx. split; [|auto].
      cbn [objs]. rewrite Hn2. destruct (Nat.eqb_spec o x) as [<-|]; [|exact Hox]. rewrite Hb in Hox. congruence.
    + intros x obx Hx Ax. rewrite Hn2 in Hx. destruct (Nat.eqb_spec o x) as [<-|Hne]; [injection Hx as <-; discriminate|].
      eapply i_pos; eauto.
    + intros x. rewrite Hn2. pose proof (i_dy _ _ _ _ H2 x) as X. cbn [In] in X. destruct (Nat.eqb_spec o x) as [<-|Hne].
      * split; [contradiction|]. intros (b' & Hb' & Sb'). injection Hb' as <-. discriminate.
      * rewrite <- X. split; [now right|]. intros [->|Y]; [contradiction|exact Y].
    + intros x. cbn [In]. rewrite Hn2, (i_dead _ _ _ _ H2 x). destruct (Nat.eqb_spec o x) as [<-|Hne].
      * split; [intros _; eexists; split; reflexivity|auto].
      * split; [intros [->|Y]; [contradiction|exact Y]|auto].
    + constructor; [exact Hnotlog|exact (i_nd _ _ _ _ H2)].
    + split; [cbn [objs]; rewrite upd_length; lia|]. split.
      * cbn [objs]. pose proof (nalive_upd (objs h2) o b (Obj 0 Dead []) Hb) as X. rewrite Sb in X. cbn [st] in X.
        pose proof (nalive_upd (objs h) o ob (Obj 0 Dying (flds ob)) Hob) as Y. rewrite Aob in Y. cbn [st] in Y.
        unfold h1, set_obj in N2. cbn [objs] in N2. lia.
      * cbn [objs]. intros i ob' Hi Ai. rewrite Hn2 in Hi. destruct (Nat.eqb_spec o i) as [<-|Hne]; [injection Hi as <-; discriminate|].
        destruct (F2 _ _ Hi Ai) as (ob1 & H1 & A1 & E1). unfold h1 in H1. rewrite set_obj_nth in H1 by auto.
        destruct (Nat.eqb_spec o i); [contradiction|]. eauto.
  - change (0 <? S (S n)) with true. unfold assert_. rewrite andb_false_r. cbn [bind].
    eexists. split; [reflexivity|].
    assert (Hm : forall x, member_refs (upd (objs h) o (Obj (S n) Alive (flds ob))) x = member_refs (objs h) x).
    { intros x. pose proof (member_refs_upd (objs h) o ob (Obj (S n) Alive (flds ob)) x Hob) as X. unfold contrib in X.
      rewrite Aob in X. cbn [st flds] in X. lia. }
    assert (Hn : forall i, nth_error (upd (objs h) o (Obj (S n) Alive (flds ob))) i = if o =? i then Some (Obj (S n) Alive (flds ob)) else nth_error (objs h) i).
    { intros i. exact (set_obj_nth h o _ i Ho). }
    split; [split; cbn [set_obj objs log]|].
    + intros x obx Hx Ax. rewrite Hn in Hx. rewrite Hm. destruct (Nat.eqb_spec o x) as [<-|Hne].
      * injection Hx as <-. cbn [rc]. lia.
      * rewrite (i_rc _ _ _ _ H x obx Hx Ax), is_ref_ne by auto. lia.
    + intros x Hx. rewrite Hm in Hx. unfold halive. cbn [set_obj objs]. rewrite Hn. destruct (Nat.eqb_spec o x) as [<-|Hne].
      * eexists; split; reflexivity.
      * apply (i_tgt _ _ _ _ H x). lia.
    + intros x obx Hx Ax R. rewrite Hn in Hx. destruct (Nat.eqb_spec o x) as [<-|Hne]; [injection Hx as <-; discriminate|].
      eapply i_pos; eauto.
    + intros x. rewrite Hn, (i_dy _ _ _ _ H x). destruct (Nat.eqb_spec o x) as [<-|Hne]; [|tauto].
      rewrite Hob. split; intros (b & Hb & Sb); injection Hb as <-; cbn in *; congruence.
    + intros x. rewrite Hn, (i_dead _ _ _ _ H x). destruct (Nat.eqb_spec o x) as [<-|Hne]; [|tauto].
      rewrite Hob. split; intros (b & Hb & Sb); injection Hb as <-; cbn in *; congruence.
    + exact (i_nd _ _ _ _ H).
    + split; [cbn; apply upd_length|]. split.
      * cbn [set_obj objs]. pose proof (nalive_upd (objs h) o ob (Obj (S n) Alive (flds ob)) Hob) as X. rewrite Aob in X. cbn [st] in X. lia.
      * cbn [set_obj objs]. intros i ob' Hi Ai. rewrite Hn in Hi. destruct (Nat.eqb_spec o i) as [<-|Hne]; [|eauto].
        injection Hi as <-. exists ob. auto.
Qed.

(** ** A release does not look at the members of an object that survives it *)
Definition wf (y : nat) (fs : list (option nat)) (h : heap) : heap :=
  match nth_error (objs h) y with
  | Some ob => set_obj h y (Obj (rc ob) (st ob) fs)
  | None => h
  end.
Lemma wf_nth y fs h i : nth_error (objs (wf y fs h)) i =
  if y =? i then option_map (fun ob => Obj (rc ob) (st ob) fs) (nth_error (objs h) i) else nth_error (objs h) i.
Proof.
  unfold wf. destruct (nth_error (objs h) y) as [ob|] eqn:E.
  - rewrite set_obj_nth by (apply nth_error_Some; congruence). destruct (Nat.eqb_spec y i) as [<-|]; [now rewrite E|reflexivity].
  - destruct (Nat.eqb_spec y i) as [<-|]; [now rewrite E|reflexivity].
Qed.
Lemma wf_log y fs h : log (wf y fs h) = log h.
Proof. unfold wf. destruct (nth_error _ _); reflexivity. Qed.
Lemma wf_len y fs h : length (objs (wf y fs h)) = length (objs h).
Proof. unfold wf. destruct (nth_error _ _); [cbn; apply upd_length|reflexivity]. Qed.
Lemma nth_ext_list {A} (l1 l2 : list A) : (forall i, nth_error l1 i = nth_error l2 i) -> l1 = l2.
Proof.
  revert l2; induction l1 as [|a l1 IH]; intros [|b l2] H; auto.
  - specialize (H 0). discriminate.
  - specialize (H 0). discriminate.
  - f_equal; [specialize (H 0); cbn in H; congruence|]. apply IH. intros i. exact (H (S i)).
Qed.
Lemma heap_ext h1 h2 : (forall i, nth_error (objs h1) i = nth_error (objs h2) i) -> log h1 = log h2 -> h1 = h2.
Proof. destruct h1, h2; cbn. intros H ->. now rewrite (nth_ext_list _ _ H). Qed.

Lemma get_alive_inv h o ob : get_alive h o = Ok ob -> nth_error (objs h) o = Some ob /\ st ob = Alive.
Proof.
  unfold get_alive, slot_get. destruct (nth_error (objs h) o) as [b|]; cbn [bind]; try discriminate.
  destruct (st b) eqn:E; try discriminate. intros X. injection X as ->. auto.
Qed.
Lemma finish_inv h o m : finish h o = Ok m ->
  exists b, nth_error (objs h) o = Some b /\ st b = Dying /\ m = Heap (upd (objs h) o (Obj 0 Dead [])) (o :: log h).
Proof.
  unfold finish, slot_get. destruct (nth_error (objs h) o) as [b|]; cbn [bind]; try discriminate.
  destruct (st b) eqn:E; try discriminate. intros X. injection X as <-. eauto.
Qed.
Lemma finish_not_alive h o m y : finish h o = Ok m -> halive m y -> halive h y /\ y <> o.
Proof.
  intros F (b & Hb & Ab). apply finish_inv in F as (b0 & H0 & S0 & ->). cbn [objs] in Hb.
  assert (Ho : o < length (objs h)) by (apply nth_error_Some; congruence).
  pose proof (set_obj_nth h o (Obj 0 Dead []) y Ho) as X. cbn [set_obj objs] in X.
  rewrite X in Hb. destruct (Nat.eqb_spec o y) as [<-|Hne]; [injection Hb as <-; discriminate|]. split; [exists b; auto|auto].
Qed.

Lemma alive_back : forall fuel h o m y, obj_Release debug fuel h o = Ok m -> halive m y -> halive h y.
Proof.
  induction fuel as [|f IH]; intros h o m y E Hy; [discriminate|].
  cbn [obj_Release] in E. destruct (get_alive h o) as [ob| |] eqn:G; cbn [bind] in E; try discriminate.
  apply get_alive_inv in G as [Hob Aob].
  assert (Ho : o < length (objs h)) by (apply nth_error_Some; congruence).
  destruct (assert_ debug (0 <? rc ob)); cbn [bind] in E; try discriminate.
  destruct (rc ob) as [|[|n]].
  - injection E as <-. exact Hy.
  - destruct (release_list _ _ _) as [h2| |] eqn:L; cbn [bind] in E; try discriminate.
    apply (finish_not_alive _ _ _ y E) in Hy as [Hy Hne].
    assert (G : forall ps h1 h2, release_list (obj_Release debug f) h1 ps = Ok h2 -> halive h2 y -> halive h1 y).
    { clear - IH. induction ps as [|[q|] ps IHp]; intros h1 h2 L Hy; cbn [release_list] in L.
      - injection L as <-. exact Hy.
      - destruct (obj_Release debug f h1 q) as [h3| |] eqn:R; cbn [bind] in L; try discriminate. eauto.
      - eauto. }
    apply (G _ _ _ L) in Hy as (b & Hb & Ab). rewrite set_obj_nth in Hb by auto.
    destruct (Nat.eqb_spec o y); [congruence|]. exists b. auto.
  - injection E as <-. destruct Hy as (b & Hb & Ab). rewrite set_obj_nth in Hb by auto.
    destruct (Nat.eqb_spec o y) as [<-|]; [exists ob; auto|exists b; auto].
Qed.

Lemma release_sim y fs : forall fuel h o m, obj_Release debug fuel h o = Ok m -> halive m y ->
  obj_Release debug fuel (wf y fs h) o = Ok (wf y fs m).
Proof.
  induction fuel as [|f IH]; intros h o m E Hy; [discriminate|].
  cbn [obj_Release] in E |- *. destruct (get_alive h o) as [ob| |] eqn:G; cbn [bind] in E; try discriminate.
  apply get_alive_inv in G as [Hob Aob].
  assert (Ho : o < length (objs h)) by (apply nth_error_Some; congruence).
  destruct (assert_ debug (0 <? rc ob)) as [[]| |] eqn:As; cbn [bind] in E; try discriminate.
  set (fo := if y =? o then fs else flds ob).
  assert (Gw : get_alive (wf y fs h) o = Ok (Obj (rc ob) Alive fo)).
  { apply get_alive_ok; [|reflexivity]. rewrite wf_nth, Hob. unfold fo. destruct (y =? o); cbn; [now rewrite Aob|].
    destruct ob; cbn in *; subst; reflexivity. }
  rewrite Gw. cbn [bind rc flds]. rewrite As. cbn [bind].
  destruct (rc ob) as [|[|n]].
  - injection E as <-. reflexivity.
  - destruct (release_list _ _ _) as [h2| |] eqn:L; cbn [bind] in E; try discriminate.
    destruct (finish_not_alive _ _ _ y E Hy) as [Hy2 Hne].
    assert (Hfo : fo = flds ob) by (unfold fo; destruct (Nat.eqb_spec y o); congruence). rewrite Hfo.
    assert (Hs : set_obj (wf y fs h) o (Obj 0 Dying (flds ob)) = wf y fs (set_obj h o (Obj 0 Dying (flds ob)))).
    { apply heap_ext.
      - intros i. rewrite set_obj_nth by (now rewrite wf_len). rewrite !wf_nth, set_obj_nth by auto.
        destruct (Nat.eqb_spec o i) as [<-|]; [|reflexivity]. destruct (Nat.eqb_spec y o); [congruence|reflexivity].
      - rewrite wf_log. cbn. now rewrite wf_log. }
    rewrite Hs.
    assert (G : forall ps h1 h2, release_list (obj_Release debug f) h1 ps = Ok h2 -> halive h2 y ->
      halive h1 y /\ release_list (obj_Release debug f) (wf y fs h1) ps = Ok (wf y fs h2)).
    { clear - IH. induction ps as [|[q|] ps IHp]; intros h1 h2 L Hy; cbn [release_list] in L |- *.
      - injection L as <-. auto.
      - destruct (obj_Release debug f h1 q) as [h3| |] eqn:R; cbn [bind] in L; try discriminate.
        destruct (IHp _ _ L Hy) as [Hy3 E3]. rewrite (IH _ _ _ R Hy3). cbn [bind]. split; [|exact E3]. eapply alive_back; eauto.
      - eauto. }
    destruct (G _ _ _ L Hy2) as [_ ->]. cbn [bind].
    apply finish_inv in E as (b & Hb & Sb & ->). unfold finish.
    assert (Hbw : nth_error (objs (wf y fs h2)) o = Some b) by (rewrite wf_nth; destruct (Nat.eqb_spec y o); [congruence|exact Hb]).
    rewrite (slot_get_ok _ _ _ Hbw). cbn [bind]. rewrite Sb. f_equal.
    assert (Ho2 : o < length (objs h2)) by (apply nth_error_Some; congruence).
    apply heap_ext.
    + intros i. cbn [objs].
      pose proof (set_obj_nth (wf y fs h2) o (Obj 0 Dead []) i) as X. cbn [set_obj objs] in X. rewrite X by (now rewrite wf_len).
      rewrite !wf_nth. cbn [objs].
      pose proof (set_obj_nth h2 o (Obj 0 Dead []) i Ho2) as Y. cbn [set_obj objs] in Y. rewrite Y.
      clear X Y. destruct (Nat.eqb_spec o i) as [Ei|]; [|reflexivity]. subst i. destruct (Nat.eqb_spec y o); [congruence|reflexivity].
    + cbn [log]. rewrite !wf_log. reflexivity.
  - injection E as <-. f_equal. apply heap_ext.
    + intros i. rewrite set_obj_nth by (now rewrite wf_len). rewrite !wf_nth, set_obj_nth by auto.
      destruct (Nat.eqb_spec o i) as [<-|]; [|reflexivity]. unfold fo. destruct (Nat.eqb_spec y o); reflexivity.
    + rewrite wf_log. cbn. now rewrite wf_log.
Qed.
End S.
