(** Doubly linked list invariants. *)
From Verif Require Import Base BitsProofs InlineListModel InlineListSpec.

Lemma addr_eqb_spec a b : reflect (a = b) (addr_eqb a b).
Proof.
  destruct a as [i|i], b as [j|j]; cbn; try (constructor; congruence);
    (destruct (Nat.eqb_spec i j); constructor; congruence).
Qed.
Lemma addr_eqb_refl a : addr_eqb a a = true.
Proof. destruct (addr_eqb_spec a a); congruence. Qed.
Lemma addr_eqb_ne a b : a <> b -> addr_eqb a b = false.
Proof. destruct (addr_eqb_spec a b); congruence. Qed.
Lemma fupd_eq {B} (f : addr -> B) a b : fupd f a b a = b.
Proof. unfold fupd. now rewrite addr_eqb_refl. Qed.
Lemma fupd_ne {B} (f : addr -> B) a b x : a <> x -> fupd f a b x = f x.
Proof. intros H. unfold fupd. now rewrite addr_eqb_ne. Qed.

(** x, s, z are consecutive. *)
Fixpoint dll (nx pv : addr -> ptr) (x : addr) (s : list addr) (z : addr) : Prop :=
  match s with
  | [] => nx x = Some z /\ pv z = Some x
  | y :: r => nx x = Some y /\ pv y = Some x /\ dll nx pv y r z
  end.

Lemma dll_frame nx pv nx' pv' s : forall x z, dll nx pv x s z ->
  (forall a, In a (x :: s) -> nx' a = nx a) -> (forall a, In a (s ++ [z]) -> pv' a = pv a) ->
  dll nx' pv' x s z.
Proof.
  induction s as [|y s IH]; intros x z H Hn Hp; cbn in *.
  - destruct H as [H1 H2]. rewrite Hn, Hp; auto.
  - destruct H as (H1 & H2 & H3). rewrite Hn, Hp; auto. split; [auto|]. split; [auto|].
    apply IH; auto.
Qed.
Lemma dll_app nx pv s1 : forall x y s2 z,
  dll nx pv x (s1 ++ y :: s2) z <-> dll nx pv x s1 y /\ dll nx pv y s2 z.
Proof.
  induction s1 as [|a s1 IH]; intros x y s2 z; cbn; [tauto|]. rewrite IH. tauto.
Qed.
Lemma dll_first nx pv x s z : dll nx pv x s z -> nx x = Some (hd z s).
Proof. destruct s; cbn; tauto. Qed.
Lemma last_default {A} (l : list A) a d d' : last (l ++ [a]) d = last (l ++ [a]) d'.
Proof. now rewrite !last_last. Qed.
Lemma dll_last nx pv s : forall x z, dll nx pv x s z -> pv z = Some (last s x).
Proof.
  induction s as [|y s IH]; intros x z H; cbn in H; [tauto|]. destruct H as (_ & _ & H). apply IH in H.
  rewrite H. f_equal. destruct s; [reflexivity|]. cbn [last]. clear. revert a. induction s as [|b s IH]; intros a; [reflexivity|].
  cbn [last] in *. apply IH.
Qed.

Lemma dll_unlink nx pv n s2 z : forall s1 x,
  dll nx pv x (s1 ++ n :: s2) z -> NoDup (x :: s1 ++ n :: s2) -> ~ In z (s1 ++ n :: s2) ->
  exists p q, pv n = Some p /\ nx n = Some q /\ In p (x :: s1) /\ In q (s2 ++ [z]) /\
    dll (fupd nx p (Some q)) (fupd pv q (Some p)) x (s1 ++ s2) z.
Proof.
  induction s1 as [|y s1 IH]; intros x H Hnd Hz; cbn [app] in *.
  - cbn in H. destruct H as (H1 & H2 & H3). destruct s2 as [|q r].
    + cbn in H3. destruct H3 as [H3 H4]. exists x, z. repeat split; cbn; auto; apply fupd_eq.
    + cbn in H3. destruct H3 as (H3 & H4 & H5). exists x, q. split; [auto|]. split; [auto|].
      split; [now left|]. split; [now left|]. cbn. rewrite !fupd_eq. split; [auto|]. split; [auto|].
      inversion Hnd as [|? ? Hx Hnd1]; subst. inversion Hnd1 as [|? ? Hn Hnd2]; subst. inversion Hnd2 as [|? ? Hq Hnd3]; subst.
      eapply dll_frame; [exact H5| |].
      * intros a Ha. apply fupd_ne. intros ->. apply Hx. right. exact Ha.
      * intros a Ha. apply fupd_ne. intros ->. apply in_app_or in Ha as [Ha|[<-|[]]]; [auto|].
        apply Hz. right. now left.
  - cbn in H. destruct H as (H1 & H2 & H3). inversion Hnd as [|? ? Hx Hnd1]; subst.
    destruct (IH y H3 Hnd1) as (p & q & Hp & Hq & Ip & Iq & Hd). { intros X. apply Hz. now right. }
    exists p, q. split; [auto|]. split; [auto|]. split; [now right|]. split; [auto|].
    cbn. split; [|split; [|exact Hd]].
    + rewrite fupd_ne; [exact H1|]. intros ->. apply Hx. destruct Ip as [<-|Ip]; [now left|]. right. apply in_or_app. now left.
    + rewrite fupd_ne; [exact H2|]. intros ->. apply in_app_or in Iq as [Iq|[<-|[]]].
      * inversion Hnd1 as [|? ? Hy _]; subst. apply Hy. apply in_or_app. right. now right.
      * apply Hz. now left.
Qed.

Lemma dll_append nx pv n z : forall s x,
  dll nx pv x s z -> NoDup (x :: s) -> ~ In z s -> ~ In n (x :: s) -> n <> z ->
  exists p, pv z = Some p /\ In p (x :: s) /\
    dll (fupd (fupd nx n (Some z)) p (Some n)) (fupd (fupd pv n (Some p)) z (Some n)) x (s ++ [n]) z.
Proof.
  induction s as [|y s IH]; intros x H Hnd Hz Hn Hnz; cbn [app] in *.
  - cbn in H. destruct H as (H1 & H2). exists x. split; [auto|]. split; [now left|]. cbn.
    rewrite fupd_eq. split; [auto|]. rewrite fupd_ne by congruence. rewrite fupd_eq. split; [auto|].
    assert (x <> n) by (intros ->; apply Hn; now left).
    rewrite fupd_ne by auto. rewrite !fupd_eq. auto.
  - cbn in H. destruct H as (H1 & H2 & H3). inversion Hnd as [|? ? Hx Hnd1]; subst.
    destruct (IH y H3 Hnd1) as (p & Hp & Ip & Hd).
    { intros X. apply Hz. now right. } { intros X. apply Hn. now right. } { exact Hnz. }
    exists p. split; [auto|]. split; [now right|]. cbn. split; [|split; [|exact Hd]].
    + rewrite !fupd_ne; [exact H1| |].
      * intros ->. apply Hn. now left.
      * intros ->. apply Hx. exact Ip.
    + rewrite !fupd_ne; [exact H2| |].
      * intros ->. apply Hn. right. now left.
      * intros ->. apply Hz. now left.
Qed.

(** *** Sequences *)
Lemma del_notin n s : ~ In n s -> del n s = s.
Proof.
  intros H. unfold del. induction s as [|a s IH]; [reflexivity|]. cbn.
  destruct (Nat.eqb_spec n a) as [->|Hne]; [exfalso; apply H; now left|]. cbn. rewrite IH; auto.
  intros X. apply H. now right.
Qed.
Lemma del_mid n s1 s2 : NoDup (s1 ++ n :: s2) -> del n (s1 ++ n :: s2) = s1 ++ s2.
Proof.
  intros H. apply NoDup_remove_2 in H. unfold del. rewrite filter_app. cbn. rewrite Nat.eqb_refl. cbn.
  fold (del n s1). fold (del n s2). rewrite !del_notin; auto; intros X; apply H; apply in_or_app; auto.
Qed.
Lemma in_map_Node n s : In (Node n) (map Node s) <-> In n s.
Proof.
  rewrite in_map_iff. split; [intros (x & E & H); congruence|]. intros H. exists n. auto.
Qed.
Lemma Head_not_in l s : ~ In (Head l) (map Node s).
Proof. rewrite in_map_iff. intros (x & E & _). discriminate. Qed.
Lemma nodup_cyc l s : NoDup s -> NoDup (Head l :: map Node s).
Proof.
  intros H. constructor; [apply Head_not_in|]. apply FinFun.Injective_map_NoDup; [|exact H].
  intros x y E. congruence.
Qed.

Section Inv.
Variable debug : bool.

Record inv (A : astate) (m : mem) (u : nat -> nat) : Prop := {
  i_live : forall l, live m l = match A l with Some _ => true | None => false end;
  i_nodup : forall l s, A l = Some s -> NoDup s;
  i_dll : forall l s, A l = Some s -> dll (nxt m) (prv m) (Head l) (map Node s) (Head l);
  i_disj : forall l1 l2 n, in_list A l1 n -> in_list A l2 n -> l1 = l2;
  i_len : forall l s, A l = Some s -> len m l = ((N.of_nat (length s) + N.of_nat (u l)) mod 2 ^ 64)%N;
  i_null : debug = true -> forall n, (nxt m (Node n) = None /\ prv m (Node n) = None) \/ in_some A n
}.

Lemma in_list_ext A A' l n : (forall l, A l = A' l) -> in_list A l n <-> in_list A' l n.
Proof. intros H. unfold in_list. now rewrite H. Qed.
Lemma inv_ext A A' m u : (forall l, A l = A' l) -> inv A m u -> inv A' m u.
Proof.
  intros E [H1 H2 H3 H4 H5 H6]. split.
  - intros l. now rewrite <- E.
  - intros l s. rewrite <- E. apply H2.
  - intros l s. rewrite <- E. apply H3.
  - intros l1 l2 n. rewrite <- !(in_list_ext A A') by auto. apply H4.
  - intros l s. rewrite <- E. apply H5.
  - intros Hd n. destruct (H6 Hd n) as [Hn|[l Hl]]; [auto|]. right. exists l. now apply (in_list_ext A A').
Qed.
Lemma inv_uext A m u u' : (forall l, u l = u' l) -> inv A m u -> inv A m u'.
Proof. intros E [H1 H2 H3 H4 H5 H6]. split; auto. intros l s. rewrite <- E. apply H5. Qed.

Lemma set_list_eq A l v : set_list A l v l = v.
Proof. unfold set_list. now rewrite Nat.eqb_refl. Qed.
Lemma set_list_ne A l v l' : l <> l' -> set_list A l v l' = A l'.
Proof. intros H. unfold set_list. destruct (Nat.eqb_spec l l'); congruence. Qed.

Lemma alive_in A m u l s a : inv A m u -> A l = Some s -> In a (Head l :: map Node s) -> alive m a = true.
Proof.
  intros H Hs [<-|Ha]; [cbn; now rewrite (i_live _ _ _ H), Hs|].
  apply in_map_iff in Ha as (x & <- & _). reflexivity.
Qed.

Lemma len_sub k u : (usub 64 ((N.of_nat (S k) + N.of_nat u) mod 2 ^ 64) 1 = (N.of_nat k + N.of_nat u) mod 2 ^ 64)%N.
Proof.
  unfold usub. rewrite (N.mod_small 1) by reflexivity.
  rewrite N.add_mod_idemp_l by discriminate.
  replace (N.of_nat (S k) + N.of_nat u + (2 ^ 64 - 1))%N with (N.of_nat k + N.of_nat u + 1 * 2 ^ 64)%N.
  - apply N.mod_add. discriminate.
  - change (2 ^ 64)%N with 18446744073709551616%N. lia.
Qed.
Lemma len_add k u : (uadd 64 ((N.of_nat k + N.of_nat u) mod 2 ^ 64) 1 = (N.of_nat (S k) + N.of_nat u) mod 2 ^ 64)%N.
Proof.
  unfold uadd. rewrite N.add_mod_idemp_l by discriminate. f_equal. lia.
Qed.

(** Memory after taking n out between p and q, with or without clearing n's own links. *)
Definition cut (m : mem) (p q : addr) (n : nat) (clear : bool) (ln : nat -> N) : mem :=
  Mem (if clear then fupd (fupd (nxt m) p (Some q)) (Node n) None else fupd (nxt m) p (Some q))
      (if clear then fupd (fupd (prv m) q (Some p)) (Node n) None else fupd (prv m) q (Some p))
      ln (live m).

Lemma cut_inv A m u l s1 n s2 :
  inv A m u -> A l = Some (s1 ++ n :: s2) ->
  exists p q, prv m (Node n) = Some p /\ nxt m (Node n) = Some q /\
    p <> Node n /\ q <> Node n /\ alive m p = true /\ alive m q = true /\
    forall clear u' ln, (debug = true -> clear = true) ->
      (forall l', l' <> l -> u' l' = u l' /\ ln l' = len m l') ->
      ln l = ((N.of_nat (length (s1 ++ s2)) + N.of_nat (u' l)) mod 2 ^ 64)%N ->
      inv (set_list A l (Some (s1 ++ s2))) (cut m p q n clear ln) u'.
Proof.
  intros H Hs. pose proof (i_nodup _ _ _ H _ _ Hs) as Hnd. pose proof (i_dll _ _ _ H _ _ Hs) as Hd.
  rewrite map_app in Hd. cbn [map] in Hd.
  pose proof (nodup_cyc l _ Hnd) as Hc. rewrite map_app in Hc. cbn [map] in Hc.
  pose proof (Head_not_in l (s1 ++ n :: s2)) as Hh. rewrite map_app in Hh. cbn [map] in Hh.
  destruct (dll_unlink _ _ _ _ _ _ _ Hd Hc Hh) as (p & q & Hp & Hq & Ip & Iq & Hd').
  assert (Hnn : ~ In n (s1 ++ s2)) by now apply NoDup_remove_2.
  assert (Hpn : p <> Node n).
  { intros ->. destruct Ip as [E|Ip]; [discriminate|]. apply in_map_Node in Ip. apply Hnn. apply in_or_app. auto. }
  assert (Hqn : q <> Node n).
  { intros ->. apply in_app_or in Iq as [Iq|[E|[]]]; [|discriminate]. apply in_map_Node in Iq. apply Hnn. apply in_or_app. auto. }
  assert (Ip' : In p (Head l :: map Node (s1 ++ n :: s2))).
  { rewrite map_app. destruct Ip as [<-|Ip]; [now left|]. right. apply in_or_app. auto. }
  assert (Iq' : In q (Head l :: map Node (s1 ++ n :: s2))).
  { rewrite map_app. apply in_app_or in Iq as [Iq|[<-|[]]]; [|now left]. right. apply in_or_app. right. now right. }
  exists p, q. split; [exact Hp|]. split; [exact Hq|]. split; [exact Hpn|]. split; [exact Hqn|].
  split; [eapply alive_in; eauto|]. split; [eapply alive_in; eauto|].
  intros clear u' ln Hclear Hother Hln.
  (* addresses of other lists are not p, q or n *)
  assert (Hfr : forall l' s' a, l' <> l -> A l' = Some s' -> In a (Head l' :: map Node s') -> a <> p /\ a <> q /\ a <> Node n).
  { intros l' s' a Hne Hs' Ha.
    assert (G : forall b, In b (Head l :: map Node (s1 ++ n :: s2)) -> a <> b).
    { intros b Hb ->. destruct Hb as [<-|Hb].
      - destruct Ha as [E|Ha]; [congruence|]. now apply Head_not_in in Ha.
      - apply in_map_iff in Hb as (k & <- & Hk). destruct Ha as [E|Ha]; [discriminate|]. apply in_map_Node in Ha.
        apply Hne. apply (i_disj _ _ _ H l' l k); [exists s'|exists (s1 ++ n :: s2)]; auto. }
    split; [auto|]. split; [auto|]. apply G. right. apply in_map_Node. apply in_or_app. right. now left. }
  assert (Nn : forall a, a <> p -> a <> Node n -> nxt (cut m p q n clear ln) a = nxt m a).
  { intros a H1 H2. unfold cut. cbn [nxt]. destruct clear; rewrite ?fupd_ne; auto. }
  assert (Pn : forall a, a <> q -> a <> Node n -> prv (cut m p q n clear ln) a = prv m a).
  { intros a H1 H2. unfold cut. cbn [prv]. destruct clear; rewrite ?fupd_ne; auto. }
  assert (Hin : forall l' k, in_list (set_list A l (Some (s1 ++ s2))) l' k -> in_list A l' k).
  { intros l' k (s' & Es & Hk). destruct (Nat.eq_dec l l') as [<-|Hne].
    - rewrite set_list_eq in Es. injection Es as <-. exists (s1 ++ n :: s2). split; [exact Hs|].
      apply in_app_or in Hk as [Hk|Hk]; apply in_or_app; [auto|right; now right].
    - rewrite set_list_ne in Es by auto. exists s'. auto. }
  split.
  - intros l'. cbn. rewrite (i_live _ _ _ H). destruct (Nat.eq_dec l l') as [<-|Hne].
    + now rewrite set_list_eq, Hs.
    + now rewrite set_list_ne.
  - intros l' s' Es. destruct (Nat.eq_dec l l') as [<-|Hne].
    + rewrite set_list_eq in Es. injection Es as <-. now apply NoDup_remove_1 in Hnd.
    + rewrite set_list_ne in Es by auto. eapply i_nodup; eauto.
  - intros l' s' Es. destruct (Nat.eq_dec l l') as [<-|Hne].
    + rewrite set_list_eq in Es. injection Es as <-. rewrite map_app.
      eapply dll_frame; [exact Hd'| |].
      * intros a Ha. unfold cut. cbn [nxt]. destruct clear; [|reflexivity]. apply fupd_ne. intros <-.
        destruct Ha as [E|Ha]; [discriminate|]. rewrite <- map_app in Ha. apply in_map_Node in Ha. auto.
      * intros a Ha. unfold cut. cbn [prv]. destruct clear; [|reflexivity]. apply fupd_ne. intros <-.
        rewrite <- map_app in Ha. apply in_app_or in Ha as [Ha|[E|[]]]; [|discriminate]. apply in_map_Node in Ha. auto.
    + rewrite set_list_ne in Es by auto. eapply dll_frame; [eapply i_dll; eauto| |].
      * intros a Ha. destruct (Hfr l' s' a ltac:(auto) Es Ha) as (X1 & X2 & X3). now apply Nn.
      * intros a Ha. destruct (Hfr l' s' a) as (X1 & X2 & X3); auto.
        { apply in_app_or in Ha as [Ha|[<-|[]]]; [now right|now left]. }
  - intros l1 l2 k H1 H2. eapply i_disj; eauto.
  - intros l' s' Es. destruct (Nat.eq_dec l l') as [<-|Hne].
    + rewrite set_list_eq in Es. injection Es as <-. exact Hln.
    + rewrite set_list_ne in Es by auto. destruct (Hother l' ltac:(auto)) as [-> E]. cbn. rewrite E.
      eapply i_len; eauto.
  - intros Hdbg k. specialize (Hclear Hdbg). subst clear. unfold cut. cbn [nxt prv].
    destruct (Nat.eq_dec k n) as [->|Hkn]; [left; rewrite !fupd_eq; auto|].
    assert (Hkeep : in_some A k -> in_some (set_list A l (Some (s1 ++ s2))) k).
    { intros (l' & s' & Es & Hi). exists l'. destruct (Nat.eq_dec l l') as [<-|Hne].
      - rewrite Hs in Es. injection Es as <-. exists (s1 ++ s2). rewrite set_list_eq. split; [auto|].
        apply in_app_or in Hi as [Hi|[Hi|Hi]]; [|congruence|]; apply in_or_app; auto.
      - exists s'. rewrite set_list_ne by auto. auto. }
    destruct (i_null _ _ _ H Hdbg k) as [[E1 E2]|Hk]; [|auto].
    destruct (addr_eqb_spec (Node k) p) as [Ek|Ek].
    { right. apply Hkeep. exists l, (s1 ++ n :: s2). split; [exact Hs|]. subst p. destruct Ip' as [E|I]; [discriminate|].
      now apply in_map_Node in I. }
    destruct (addr_eqb_spec (Node k) q) as [Eq|Eq].
    { right. apply Hkeep. exists l, (s1 ++ n :: s2). split; [exact Hs|]. subst q. destruct Iq' as [E|I]; [discriminate|].
      now apply in_map_Node in I. }
    left. rewrite !fupd_ne by (congruence || auto). auto.
Qed.

Lemma chk_ok m a : alive m a = true -> chk m (Some a) = Ok a.
Proof. intros H. cbn. now rewrite H. Qed.

Lemma remove_ok A m u l s1 n s2 :
  inv A m u -> A l = Some (s1 ++ n :: s2) ->
  exists m', remove debug m l (Some (Node n)) = Ok m' /\ inv (set_list A l (Some (s1 ++ s2))) m' u.
Proof.
  intros H Hs. destruct (cut_inv A m u l s1 n s2 H Hs) as (p & q & Hp & Hq & Hpn & Hqn & Ap & Aq & K).
  unfold remove, rd_prev, rd_next, wr_next, wr_prev, rd_len, wr_len.
  rewrite chk_ok by reflexivity. cbn [bind]. rewrite Hp, Hq. rewrite chk_ok by exact Ap. cbn [bind].
  rewrite chk_ok by reflexivity. cbn [bind nxt prv]. rewrite fupd_ne by auto. rewrite Hq, Hp.
  rewrite chk_ok by exact Aq. cbn [bind nxt prv len live].
  assert (Hl : live m l = true) by now rewrite (i_live _ _ _ H), Hs. rewrite Hl. cbn [bind nxt prv len live].
  cbn [bind].
  exists (cut m p q n debug (nupd (len m) l (usub 64 (len m l) 1))).
  split.
  - unfold cut. destruct debug; [|reflexivity]. rewrite chk_ok by reflexivity. cbn [bind].
    rewrite chk_ok by reflexivity. cbn [bind nxt prv len live]. reflexivity.
  - apply K.
    + auto.
    + intros l' Hne. split; [reflexivity|]. unfold nupd. destruct (Nat.eqb_spec l l'); congruence.
    + unfold nupd. rewrite Nat.eqb_refl, (i_len _ _ _ H _ _ Hs).
      replace (length (s1 ++ n :: s2)) with (S (length (s1 ++ s2))) by (rewrite !app_length; cbn; lia). apply len_sub.
Qed.

Lemma unlink_ok A m u l s1 n s2 :
  inv A m u -> A l = Some (s1 ++ n :: s2) ->
  exists m', removeFromParentList m n = Ok m' /\ inv (set_list A l (Some (s1 ++ s2))) m' (nupd u l (S (u l))).
Proof.
  intros H Hs. destruct (cut_inv A m u l s1 n s2 H Hs) as (p & q & Hp & Hq & Hpn & Hqn & Ap & Aq & K).
  unfold removeFromParentList, rd_prev, rd_next, wr_next, wr_prev. cbv zeta.
  rewrite chk_ok by reflexivity. cbn [bind]. rewrite Hp, Hq. rewrite chk_ok by exact Ap. cbn [bind].
  rewrite chk_ok by reflexivity. cbn [bind nxt prv]. rewrite fupd_ne by auto. rewrite Hq, Hp.
  rewrite chk_ok by exact Aq. cbn [bind nxt prv len live].
  rewrite chk_ok by reflexivity. cbn [bind nxt prv len live].
  rewrite chk_ok by reflexivity. cbn [bind nxt prv len live].
  exists (cut m p q n true (len m)). split; [reflexivity|].
  apply K.
  - auto.
  - intros l' Hne. split; [|reflexivity]. unfold nupd. destruct (Nat.eqb_spec l l'); congruence.
  - unfold nupd. rewrite Nat.eqb_refl, (i_len _ _ _ H _ _ Hs). f_equal. rewrite !app_length. cbn. lia.
Qed.

Lemma append_ok A m u l s n :
  inv A m u -> A l = Some s -> ~ in_some A n ->
  exists m', append debug m l (Some (Node n)) = Ok m' /\ inv (set_list A l (Some (s ++ [n]))) m' u.
Proof.
  intros H Hs Hn. pose proof (i_nodup _ _ _ H _ _ Hs) as Hnd. pose proof (i_dll _ _ _ H _ _ Hs) as Hd.
  assert (Hns : ~ In n s) by (intros X; apply Hn; exists l, s; auto).
  destruct (dll_append (nxt m) (prv m) (Node n) (Head l) (map Node s) (Head l) Hd (nodup_cyc l s Hnd) (Head_not_in l s))
    as (p & Hp & Ip & Hd').
  { intros [E|X]; [discriminate|]. apply in_map_Node in X. auto. } { discriminate. }
  pose proof (alive_in _ _ _ _ _ _ H Hs Ip) as Ap.
  assert (Hpn : p <> Node n).
  { intros ->. destruct Ip as [E|X]; [discriminate|]. apply in_map_Node in X. auto. }
  assert (Hl : live m l = true) by now rewrite (i_live _ _ _ H), Hs.
  unfold append, rd_prev, rd_next, wr_next, wr_prev, rd_len, wr_len. cbv zeta.
  rewrite chk_ok by reflexivity. cbn [bind].
  assert (Ha : assert_ debug (ptr_eqb (nxt m (Node n)) None) = Ok tt /\ assert_ debug (ptr_eqb (prv m (Node n)) None) = Ok tt).
  { unfold assert_. destruct debug eqn:E; [|auto]. destruct (i_null _ _ _ H E n) as [[-> ->]|X]; [auto|contradiction]. }
  destruct Ha as [-> ->]. cbn [bind].
  rewrite chk_ok by exact Hl. cbn [bind]. rewrite Hp.
  rewrite chk_ok by reflexivity. cbn [bind nxt prv len live].
  rewrite chk_ok by exact Hl. cbn [bind nxt prv len live]. rewrite fupd_ne by discriminate. rewrite Hp.
  rewrite chk_ok by (destruct p; [exact Ap|reflexivity]). cbn [bind nxt prv len live].
  rewrite chk_ok by exact Hl. cbn [bind nxt prv len live].
  rewrite Hl. cbn [bind nxt prv len live]. eexists. split; [reflexivity|].
  assert (Hfr : forall l' s' a, l' <> l -> A l' = Some s' -> In a (Head l' :: map Node s') -> a <> p /\ a <> Head l /\ a <> Node n).
  { intros l' s' a Hne Hs' Ha.
    assert (G : forall b, In b (Head l :: map Node s) -> a <> b).
    { intros b Hb ->. destruct Hb as [<-|Hb].
      - destruct Ha as [E|Ha]; [congruence|]. now apply Head_not_in in Ha.
      - apply in_map_iff in Hb as (k & <- & Hk). destruct Ha as [E|Ha]; [discriminate|]. apply in_map_Node in Ha.
        apply Hne. apply (i_disj _ _ _ H l' l k); [exists s'|exists s]; auto. }
    split; [auto|]. split; [apply G; now left|]. intros ->. destruct Ha as [E|Ha]; [discriminate|]. apply in_map_Node in Ha.
    apply Hn. exists l', s'. auto. }
  assert (Hin : forall l' k, in_list (set_list A l (Some (s ++ [n]))) l' k -> (in_list A l' k /\ k <> n) \/ (l' = l /\ k = n)).
  { intros l' k (s' & Es & Hk). destruct (Nat.eq_dec l l') as [<-|Hne].
    - rewrite set_list_eq in Es. injection Es as <-. apply in_app_or in Hk as [Hk|[<-|[]]]; [|auto].
      left. split; [exists s; auto|]. intros ->. auto.
    - rewrite set_list_ne in Es by auto. left. split; [exists s'; auto|]. intros ->. apply Hn. exists l', s'. auto. }
  split; cbn [nxt prv len live].
  - intros l'. rewrite (i_live _ _ _ H). destruct (Nat.eq_dec l l') as [<-|Hne].
    + now rewrite set_list_eq, Hs.
    + now rewrite set_list_ne.
  - intros l' s' Es. destruct (Nat.eq_dec l l') as [<-|Hne].
    + rewrite set_list_eq in Es. injection Es as <-.
      eapply Permutation_NoDup; [apply Permutation_cons_append|]. constructor; auto.
    + rewrite set_list_ne in Es by auto. eapply i_nodup; eauto.
  - intros l' s' Es. destruct (Nat.eq_dec l l') as [<-|Hne].
    + rewrite set_list_eq in Es. injection Es as <-. rewrite map_app. exact Hd'.
    + rewrite set_list_ne in Es by auto. eapply dll_frame; [eapply i_dll; eauto| |].
      * intros a Ha. destruct (Hfr l' s' a ltac:(auto) Es Ha) as (X1 & X2 & X3). rewrite !fupd_ne; auto.
      * intros a Ha. destruct (Hfr l' s' a) as (X1 & X2 & X3); auto.
        { apply in_app_or in Ha as [Ha|[<-|[]]]; [now right|now left]. }
        rewrite !fupd_ne; auto.
  - intros l1 l2 k H1 H2. apply Hin in H1, H2. destruct H1 as [[H1 N1]|[-> ->]], H2 as [[H2 N2]|[-> E]]; try congruence.
    eapply i_disj; eauto.
  - intros l' s' Es. unfold nupd. destruct (Nat.eqb_spec l l') as [<-|Hne].
    + rewrite set_list_eq in Es. injection Es as <-. rewrite (i_len _ _ _ H _ _ Hs), len_add.
      replace (length (s ++ [n])) with (S (length s)) by (rewrite app_length; cbn; lia). reflexivity.
    + rewrite set_list_ne in Es by auto. eapply i_len; eauto.
  - intros Hdbg k.
    assert (Hkeep : in_some A k \/ k = n -> in_some (set_list A l (Some (s ++ [n]))) k).
    { intros [(l' & s' & Es & Hi)| ->].
      - exists l'. destruct (Nat.eq_dec l l') as [<-|Hne].
        + rewrite Hs in Es. injection Es as <-. exists (s ++ [n]). rewrite set_list_eq. split; [auto|]. apply in_or_app. auto.
        + exists s'. rewrite set_list_ne by auto. auto.
      - exists l, (s ++ [n]). rewrite set_list_eq. split; [auto|]. apply in_or_app. right. now left. }
    destruct (Nat.eq_dec k n) as [->|Hkn]; [auto|].
    destruct (i_null _ _ _ H Hdbg k) as [[E1 E2]|Hk]; [|auto].
    destruct (addr_eqb_spec (Node k) p) as [Ek|Ek].
    { right. apply Hkeep. left. exists l, s. split; [exact Hs|]. subst p. destruct Ip as [E|I]; [discriminate|].
      now apply in_map_Node in I. }
    left. rewrite !fupd_ne by congruence. auto.
Qed.

(** *** iteration *)
Lemma hd_map z s : hd (Head z) (map Node s) = match s with [] => Head z | n :: _ => Node n end.
Proof. now destruct s. Qed.

Lemma adv_fwd A m u l s1 n s2 : inv A m u -> A l = Some (s1 ++ n :: s2) ->
  rd_next m (Some (Node n)) = Ok (Some (hd (Head l) (map Node s2))).
Proof.
  intros H Hs. pose proof (i_dll _ _ _ H _ _ Hs) as Hd. rewrite map_app in Hd. apply dll_app in Hd as [_ Hd].
  apply dll_first in Hd. cbn. now rewrite Hd.
Qed.
Lemma adv_rev A m u l s1 n s2 : inv A m u -> A l = Some (s1 ++ n :: s2) ->
  rd_prev m (Some (Node n)) = Ok (Some (last (map Node s1) (Head l))).
Proof.
  intros H Hs. pose proof (i_dll _ _ _ H _ _ Hs) as Hd. rewrite map_app in Hd. apply dll_app in Hd as [Hd _].
  apply dll_last in Hd. cbn. now rewrite Hd.
Qed.
Lemma begin_fwd A m u l s : inv A m u -> A l = Some s ->
  begin_ true m l = Ok (Some (hd (Head l) (map Node s))).
Proof.
  intros H Hs. unfold begin_, advance, rd_next, rd_prev, chk, alive. rewrite (i_live _ _ _ H), Hs. cbn [bind]. f_equal. eapply dll_first. eapply i_dll; eauto.
Qed.
Lemma begin_rev A m u l s : inv A m u -> A l = Some s ->
  begin_ false m l = Ok (Some (last (map Node s) (Head l))).
Proof.
  intros H Hs. unfold begin_, advance, rd_next, rd_prev, chk, alive. rewrite (i_live _ _ _ H), Hs. cbn [bind]. f_equal. eapply dll_last. eapply i_dll; eauto.
Qed.

Lemma iter_fwd pred : forall s2 fuel A m u l k acc, length s2 < fuel -> inv A m u -> A l = Some (k ++ s2) ->
  exists m', iter_loop debug fuel true pred m l (Some (hd (Head l) (map Node s2))) acc = Ok (m', rev acc ++ s2) /\
    inv (set_list A l (Some (k ++ filter (fun x => negb (pred x)) s2))) m' u.
Proof.
  induction s2 as [|n s2 IH]; intros [|f] A m u l k acc Hf H Hs; cbn [length] in Hf; try lia.
  - cbn [map hd iter_loop]. unfold ptr_eqb. rewrite addr_eqb_refl. exists m. cbn [filter]. rewrite app_nil_r.
    split; [reflexivity|]. eapply inv_ext; [|exact H]. intros l'. unfold set_list.
    destruct (Nat.eqb_spec l l') as [<-|]; auto.
  - cbn [map hd iter_loop ptr_eqb addr_eqb deref bind filter].
    destruct (pred n) eqn:Ep; cbn [negb].
    + unfold erase. cbn [advance]. rewrite (adv_fwd _ _ _ _ _ _ _ H Hs). cbn [bind].
      destruct (remove_ok _ _ _ _ _ _ _ H Hs) as (m1 & -> & H1). cbn [bind].
      destruct (IH f _ _ _ l k (n :: acc) ltac:(lia) H1 (set_list_eq _ _ _)) as (m' & E & H').
      exists m'. split; [rewrite E; cbn [rev]; now rewrite <- app_assoc|].
      eapply inv_ext; [|exact H']. intros l'. unfold set_list. destruct (l =? l'); reflexivity.
    + cbn [advance]. rewrite (adv_fwd _ _ _ _ _ _ _ H Hs). cbn [bind].
      destruct (IH f A m u l (k ++ [n]) (n :: acc)) as (m' & E & H'); [lia|exact H|now rewrite <- app_assoc|].
      exists m'. split; [rewrite E; cbn [rev]; now rewrite <- app_assoc|]. now rewrite <- app_assoc in H'.
Qed.

Lemma iter_rev pred : forall s1 fuel A m u l k acc, length s1 < fuel -> inv A m u -> A l = Some (s1 ++ k) ->
  exists m', iter_loop debug fuel false pred m l (Some (last (map Node s1) (Head l))) acc = Ok (m', rev acc ++ rev s1) /\
    inv (set_list A l (Some (filter (fun x => negb (pred x)) s1 ++ k))) m' u.
Proof.
  induction s1 as [|n s1 IH] using rev_ind; intros [|f] A m u l k acc Hf H Hs; rewrite ?app_length in Hf; cbn [length] in Hf; try lia.
  - cbn [map last iter_loop]. unfold ptr_eqb. rewrite addr_eqb_refl. exists m. cbn [filter rev app]. rewrite app_nil_r.
    split; [reflexivity|]. eapply inv_ext; [|exact H]. intros l'. unfold set_list.
    destruct (Nat.eqb_spec l l') as [<-|]; auto.
  - rewrite map_app, filter_app. cbn [map filter]. rewrite last_last, rev_unit.
    cbn [iter_loop ptr_eqb addr_eqb deref bind]. rewrite <- app_assoc in Hs. cbn [app] in Hs.
    destruct (pred n) eqn:Ep; cbn [negb].
    + unfold erase. cbn [advance]. rewrite (adv_rev _ _ _ _ _ _ _ H Hs). cbn [bind].
      destruct (remove_ok _ _ _ _ _ _ _ H Hs) as (m1 & -> & H1). cbn [bind].
      destruct (IH f _ _ _ l k (n :: acc) ltac:(lia) H1 (set_list_eq _ _ _)) as (m' & E & H').
      exists m'. split; [rewrite E; cbn [rev]; now rewrite <- app_assoc|]. rewrite app_nil_r.
      eapply inv_ext; [|exact H']. intros l'. unfold set_list. destruct (l =? l'); reflexivity.
    + cbn [advance]. rewrite (adv_rev _ _ _ _ _ _ _ H Hs). cbn [bind].
      destruct (IH f A m u l (n :: k) (n :: acc)) as (m' & E & H'); [lia|exact H|exact Hs|].
      exists m'. split; [rewrite E; cbn [rev]; now rewrite <- app_assoc|]. now rewrite <- app_assoc.
Qed.

Lemma iterate_ok pred fuel dir A m u l s : length s < fuel -> inv A m u -> A l = Some s ->
  exists m', iterate debug fuel dir pred m l = Ok (m', if dir then s else rev s) /\
    inv (set_list A l (Some (filter (fun x => negb (pred x)) s))) m' u.
Proof.
  intros Hf H Hs. unfold iterate. destruct dir.
  - rewrite (begin_fwd _ _ _ _ _ H Hs). cbn [bind].
    exact (iter_fwd pred s fuel A m u l [] [] Hf H Hs).
  - rewrite (begin_rev _ _ _ _ _ H Hs). cbn [bind].
    destruct (iter_rev pred s fuel A m u l [] [] Hf H) as (m' & E & H'); [now rewrite app_nil_r|].
    exists m'. split; [exact E|]. now rewrite app_nil_r in H'.
Qed.

Lemma dtor_ok : forall s fuel A m u l, length s < fuel -> inv A m u -> A l = Some s ->
  exists m', dtor_loop debug fuel m l = Ok m' /\ inv (set_list A l (Some [])) m' u.
Proof.
  induction s as [|n s IH]; intros [|f] A m u l Hf H Hs; cbn [length] in Hf; try lia; cbn [dtor_loop];
    rewrite (begin_fwd _ _ _ _ _ H Hs); cbn [bind].
  - cbn [map hd]. unfold ptr_eqb. rewrite addr_eqb_refl. exists m. split; [reflexivity|].
    eapply inv_ext; [|exact H]. intros l'. unfold set_list. destruct (Nat.eqb_spec l l') as [<-|]; auto.
  - cbn [map hd ptr_eqb addr_eqb]. destruct (remove_ok _ _ _ _ [] _ _ H Hs) as (m1 & -> & H1). cbn [bind].
    destruct (IH f _ _ _ l ltac:(lia) H1 (set_list_eq _ _ _)) as (m' & E & H'). exists m'. split; [exact E|].
    eapply inv_ext; [|exact H']. intros l'. unfold set_list. destruct (l =? l'); reflexivity.
Qed.

Lemma destroy_ok fuel A m u l s : length s < fuel -> inv A m u -> A l = Some s ->
  exists m', destroy debug fuel m l = Ok m' /\ inv (set_list A l None) m' u.
Proof.
  intros Hf H Hs. unfold destroy.
  assert (G : exists m1 A1 s1, (if debug then dtor_loop debug fuel m l else Ok m) = Ok m1 /\ inv A1 m1 u /\
    A1 l = Some s1 /\ (forall l', l <> l' -> A1 l' = A l') /\ (debug = true -> s1 = [])).
  { destruct debug eqn:Ed.
    - rewrite <- Ed in *. destruct (dtor_ok s fuel A m u l Hf H Hs) as (m' & E & H').
      exists m', (set_list A l (Some [])), []. split; [exact E|]. split; [exact H'|]. split; [apply set_list_eq|].
      split; [intros; now apply set_list_ne|auto].
    - exists m, A, s. repeat split; auto; try apply H; discriminate. }
  destruct G as (m1 & A1 & s1 & -> & H1 & Hs1 & Hother & Hnil). cbn [bind]. eexists. split; [reflexivity|].
  assert (Hin : forall l' k, in_list (set_list A l None) l' k -> in_list A1 l' k).
  { intros l' k (s' & Es & Hk). destruct (Nat.eq_dec l l') as [<-|Hne]; [rewrite set_list_eq in Es; discriminate|].
    rewrite set_list_ne in Es by auto. exists s'. rewrite Hother by auto. auto. }
  split; cbn [nxt prv len live].
  - intros l'. unfold nupd, set_list. destruct (Nat.eqb_spec l l') as [<-|Hne]; [reflexivity|].
    rewrite (i_live _ _ _ H1), Hother by auto. reflexivity.
  - intros l' s' Es. destruct (Nat.eq_dec l l') as [<-|Hne]; [rewrite set_list_eq in Es; discriminate|].
    rewrite set_list_ne in Es by auto. rewrite <- Hother in Es by auto. eapply i_nodup; eauto.
  - intros l' s' Es. destruct (Nat.eq_dec l l') as [<-|Hne]; [rewrite set_list_eq in Es; discriminate|].
    rewrite set_list_ne in Es by auto. rewrite <- Hother in Es by auto. eapply i_dll; eauto.
  - intros l1 l2 n X Y. eapply i_disj; eauto.
  - intros l' s' Es. destruct (Nat.eq_dec l l') as [<-|Hne]; [rewrite set_list_eq in Es; discriminate|].
    rewrite set_list_ne in Es by auto. rewrite <- Hother in Es by auto. eapply i_len; eauto.
  - intros Hd n. destruct (i_null _ _ _ H1 Hd n) as [X|(l' & s' & Es & Hi)]; [auto|]. right. exists l'.
    destruct (Nat.eq_dec l l') as [<-|Hne].
    + rewrite Hs1, (Hnil Hd) in Es. injection Es as <-. destruct Hi.
    + exists s'. rewrite set_list_ne by auto. rewrite <- Hother by auto. auto.
Qed.

Lemma construct_ok A m u l : inv A m u -> A l = None ->
  inv (set_list A l (Some [])) (construct m l) (nupd u l 0).
Proof.
  intros H Hn.
  assert (Hin : forall l' k, in_list (set_list A l (Some [])) l' k -> in_list A l' k /\ l <> l').
  { intros l' k (s' & Es & Hk). destruct (Nat.eq_dec l l') as [<-|Hne]; [rewrite set_list_eq in Es; injection Es as <-; destruct Hk|].
    rewrite set_list_ne in Es by auto. split; [exists s'|]; auto. }
  split; cbn [construct nxt prv len live].
  - intros l'. unfold nupd, set_list. destruct (l =? l'); [reflexivity|]. apply (i_live _ _ _ H).
  - intros l' s' Es. destruct (Nat.eq_dec l l') as [<-|Hne]; [rewrite set_list_eq in Es; injection Es as <-; constructor|].
    rewrite set_list_ne in Es by auto. eapply i_nodup; eauto.
  - intros l' s' Es. destruct (Nat.eq_dec l l') as [<-|Hne].
    + rewrite set_list_eq in Es. injection Es as <-. cbn. now rewrite !fupd_eq.
    + rewrite set_list_ne in Es by auto. eapply dll_frame; [eapply i_dll; eauto| |].
      * intros a Ha. apply fupd_ne. intros <-. destruct Ha as [E|Ha]; [congruence|now apply Head_not_in in Ha].
      * intros a Ha. apply fupd_ne. intros <-. apply in_app_or in Ha as [Ha|[E|[]]]; [now apply Head_not_in in Ha|congruence].
  - intros l1 l2 n X Y. apply Hin in X, Y. eapply i_disj; [eauto|apply X|apply Y].
  - intros l' s' Es. unfold nupd. destruct (Nat.eqb_spec l l') as [<-|Hne].
    + rewrite set_list_eq in Es. injection Es as <-. reflexivity.
    + rewrite set_list_ne in Es by auto. eapply i_len; eauto.
  - intros Hd n. rewrite !fupd_ne by discriminate. destruct (i_null _ _ _ H Hd n) as [X|(l' & s' & Es & Hi)]; [auto|].
    right. exists l', s'. split; [|auto]. rewrite set_list_ne; [auto|congruence].
Qed.

Lemma isInList_ok A m u n : inv A m u ->
  exists b, isInList debug m n = Ok b /\ (in_some A n -> b = true) /\ (debug = true -> b = true -> in_some A n).
Proof.
  intros H. unfold isInList, rd_next, rd_prev. rewrite chk_ok by reflexivity. cbn [bind].
  assert (Hin : in_some A n -> exists p q, nxt m (Node n) = Some q /\ prv m (Node n) = Some p).
  { intros (l & s & Hs & Hi). apply in_split in Hi as (s1 & s2 & ->).
    pose proof (adv_fwd _ _ _ _ _ _ _ H Hs) as E1. pose proof (adv_rev _ _ _ _ _ _ _ H Hs) as E2. cbn in E1, E2.
    injection E1 as E1. injection E2 as E2. eauto. }
  exists (negb (ptr_eqb (nxt m (Node n)) None)). split; [|split].
  - unfold assert_. destruct debug eqn:Ed; [|reflexivity]. destruct (i_null _ _ _ H Ed n) as [[-> ->]|X]; [reflexivity|].
    destruct (Hin X) as (p & q & -> & ->). reflexivity.
  - intros X. destruct (Hin X) as (p & q & -> & _). reflexivity.
  - intros Hd Hb. destruct (i_null _ _ _ H Hd n) as [[E _]|X]; [|exact X]. rewrite E in Hb. discriminate.
Qed.

(** *** histories *)
Lemma step_ok fuel A m u o : inv A m u -> pre A o -> (forall l s, A l = Some s -> length s < fuel) ->
  exists m' r, step debug fuel m o = Ok (m', r) /\ inv (effect A o) m' (ueffect A o u) /\
    shows false debug A o r /\
    (forall l, o = LLength l -> exists s, A l = Some s /\
       r = RNum ((N.of_nat (length s) + N.of_nat (u l)) mod 2 ^ 64)%N).
Proof.
  intros H Hp Hf.
  assert (Hsome : forall l, A l <> None -> exists s, A l = Some s) by (intros l; destruct (A l); eauto; congruence).
  destruct o as [l|l|l n|l n|n|dir l|dir pred l|l|l|n]; cbn [step pre effect ueffect shows] in *.
  - eexists _, _. split; [reflexivity|]. split; [now apply construct_ok|]. split; [reflexivity|discriminate].
  - destruct (Hsome l Hp) as [s Hs]. destruct (destroy_ok fuel A m u l s (Hf _ _ Hs) H Hs) as (m' & -> & H').
    eexists _, _. split; [reflexivity|]. split; [exact H'|]. split; [reflexivity|discriminate].
  - destruct Hp as [Hl Hn]. destruct (Hsome l Hl) as [s Hs]. rewrite Hs.
    destruct (append_ok A m u l s n H Hs Hn) as (m' & -> & H').
    eexists _, _. split; [reflexivity|]. split; [exact H'|]. split; [reflexivity|discriminate].
  - destruct Hp as (s & Hs & Hi). apply in_split in Hi as (s1 & s2 & ->).
    destruct (remove_ok A m u l s1 n s2 H Hs) as (m' & -> & H').
    eexists _, _. split; [reflexivity|]. split; [|split; [reflexivity|discriminate]].
    rewrite Hs. cbn [option_map]. rewrite del_mid; [exact H'|]. exact (i_nodup _ _ _ H _ _ Hs).
  - destruct Hp as (l & s & Hs & Hi). pose proof (conj Hs Hi) as Hsi. apply in_split in Hi as (s1 & s2 & ->).
    destruct (unlink_ok A m u l s1 n s2 H Hs) as (m' & -> & H').
    eexists _, _. split; [reflexivity|]. split; [|split; [reflexivity|discriminate]].
    pose proof (i_nodup _ _ _ H _ _ Hs) as Hnd.
    assert (Hoth : forall l' s', l <> l' -> A l' = Some s' -> ~ In n s').
    { intros l' s' Hne Hs' Hi. apply Hne. apply (i_disj _ _ _ H l l' n); [exists (s1 ++ n :: s2)|exists s']; auto. }
    eapply inv_uext; [|eapply inv_ext; [|exact H']].
    + intros l'. unfold nupd, has. destruct (Nat.eqb_spec l l') as [<-|Hne].
      * rewrite Hs. replace (existsb (Nat.eqb n) (s1 ++ n :: s2)) with true; [reflexivity|]. symmetry.
        apply existsb_exists. exists n. split; [apply Hsi|apply Nat.eqb_refl].
      * destruct (A l') as [s'|] eqn:Es'; [|reflexivity].
        destruct (existsb (Nat.eqb n) s') eqn:E; [|reflexivity]. exfalso. apply existsb_exists in E as (x & Hx & Ex).
        apply Nat.eqb_eq in Ex. subst x. eapply Hoth; eauto.
    + intros l'. unfold set_list. destruct (Nat.eqb_spec l l') as [<-|Hne].
      * rewrite Hs. cbn [option_map]. now rewrite del_mid.
      * destruct (A l') as [s'|] eqn:Es'; [|reflexivity]. cbn [option_map]. rewrite del_notin; eauto.
  - destruct (Hsome l Hp) as [s Hs].
    destruct (iterate_ok (fun _ => false) fuel dir A m u l s (Hf _ _ Hs) H Hs) as (m' & -> & H').
    eexists _, _. split; [reflexivity|]. split; [|split; [eauto|discriminate]].
    eapply inv_ext; [|exact H']. intros l'. unfold set_list. destruct (Nat.eqb_spec l l') as [<-|]; [|reflexivity].
    rewrite Hs. f_equal. clear. induction s as [|a s IH]; cbn; [reflexivity|]. cbn in IH. now rewrite IH.
  - destruct (Hsome l Hp) as [s Hs].
    destruct (iterate_ok pred fuel dir A m u l s (Hf _ _ Hs) H Hs) as (m' & -> & H').
    eexists _, _. split; [reflexivity|]. split; [|split; [eauto|discriminate]]. rewrite Hs. exact H'.
  - destruct (Hsome l Hp) as [s Hs]. unfold length_, rd_len. rewrite (i_live _ _ _ H), Hs. cbn [bind].
    eexists _, _. split; [reflexivity|]. split; [exact H|]. split.
    + exists s, (len m l). repeat split; auto. discriminate.
    + intros l' E. injection E as <-. exists s. split; [exact Hs|]. f_equal. eapply i_len; eauto.
  - destruct (Hsome l Hp) as [s Hs]. unfold empty, rd_next. rewrite chk_ok by (cbn; now rewrite (i_live _ _ _ H), Hs).
    cbn [bind]. pose proof (dll_first _ _ _ _ _ (i_dll _ _ _ H _ _ Hs)) as E. rewrite E.
    eexists _, _. split; [reflexivity|]. split; [exact H|]. split; [|discriminate]. exists s. split; [exact Hs|].
    destruct s; cbn [map hd ptr_eqb]; [now rewrite addr_eqb_refl|reflexivity].
  - destruct (isInList_ok A m u n H) as (b & -> & H1 & H2). cbn [bind].
    eexists _, _. split; [reflexivity|]. split; [exact H|]. split; [eauto|discriminate].
Qed.

Definition bounded (A : astate) (k : nat) : Prop := forall l s, A l = Some s -> length s <= k.

Lemma filter_len {X} (f : X -> bool) s : length (filter f s) <= length s.
Proof. induction s as [|a s IH]; cbn; [lia|]. destruct (f a); cbn; lia. Qed.
Lemma effect_bounded A o k : bounded A k -> bounded (effect A o) (k + if is_append o then 1 else 0).
Proof.
  intros H l s. destruct o as [l0|l0|l0 n|l0 n|n|dir l0|dir pred l0|l0|l0|n]; cbn [effect is_append]; unfold set_list;
    try (intros Es; apply H in Es; lia);
    try (destruct (l0 =? l) eqn:E; [apply Nat.eqb_eq in E; subst|intros Es; apply H in Es; lia]).
  - intros Es. injection Es as <-. cbn. lia.
  - discriminate.
  - destruct (A l) as [s0|] eqn:E0; [|discriminate]. cbn. intros Es. injection Es as <-. apply H in E0. rewrite app_length. cbn. lia.
  - destruct (A l) as [s0|] eqn:E0; [|discriminate]. cbn. intros Es. injection Es as <-. apply H in E0.
    pose proof (filter_len (fun x => negb (n =? x)) s0). unfold del. lia.
  - destruct (A l) as [s0|] eqn:E0; [|discriminate]. cbn. intros Es. injection Es as <-. apply H in E0.
    pose proof (filter_len (fun x => negb (n =? x)) s0). unfold del. lia.
  - destruct (A l) as [s0|] eqn:E0; [|discriminate]. cbn. intros Es. injection Es as <-. apply H in E0.
    pose proof (filter_len (fun x => negb (pred x)) s0). lia.
Qed.

Lemma run_ok fuel : forall ops A m u k, inv A m u -> legal A ops -> bounded A k -> k + appends ops < fuel ->
  exists m' outs, run debug fuel m ops = Ok (m', outs) /\ explains false debug A ops outs (after A ops) /\
    inv (after A ops) m' (uafter A ops u).
Proof.
  induction ops as [|o ops IH]; intros A m u k H Hl Hb Hk.
  - exists m, []. split; [reflexivity|]. split; [constructor|exact H].
  - destruct Hl as [Hp Hl]. unfold appends in Hk. cbn [filter] in Hk.
    destruct (step_ok fuel A m u o H Hp) as (m1 & r & E & H1 & Hs & _).
    { intros l s Es. apply Hb in Es. lia. }
    destruct (IH (effect A o) m1 (ueffect A o u) (k + if is_append o then 1 else 0) H1 Hl) as (m' & outs & E' & Hx & H').
    { now apply effect_bounded. }
    { unfold appends. destruct (is_append o); cbn in Hk; lia. }
    exists m', (r :: outs). cbn [run]. rewrite E. cbn [bind]. rewrite E'. cbn [bind].
    split; [reflexivity|]. split; [|exact H']. constructor; auto.
Qed.

Lemma inv0 : inv astate0 mem0 (fun _ => 0).
Proof. split; cbn; try discriminate; auto. intros l1 l2 n (s & E & _). discriminate. Qed.

(** Without removeFromParentList the counters stay zero and length() is exact. *)
Lemma explains_len : forall fuel ops A m u k outs m', inv A m u -> (forall l, u l = 0) -> legal A ops -> bounded A k ->
  k + appends ops < fuel -> Forall (fun o => is_unlink o = false) ops ->
  run debug fuel m ops = Ok (m', outs) -> explains true debug A ops outs (after A ops).
Proof.
  induction ops as [|o ops IH]; intros A m u k outs m' H Hu Hl Hb Hk Hnu E.
  - cbn in E. injection E as _ <-. constructor.
  - destruct Hl as [Hp Hl]. unfold appends in Hk. cbn [filter] in Hk. inversion Hnu as [|? ? Hno Hnu']; subst.
    destruct (step_ok fuel A m u o H Hp) as (m1 & r & E1 & H1 & Hs & Hlen).
    { intros l s Es. apply Hb in Es. lia. }
    cbn [run] in E. rewrite E1 in E. cbn [bind] in E.
    destruct (run debug fuel m1 ops) as [[m2 rs]| |] eqn:E2; cbn [bind] in E; try discriminate. injection E as _ <-.
    constructor.
    + destruct o; cbn [shows] in Hs |- *; auto. destruct (Hlen l eq_refl) as (s & Es & ->). exists s. eexists.
      split; [exact Es|]. split; [reflexivity|]. intros _. rewrite Hu. cbn. now rewrite N.add_0_r.
    + eapply (IH (effect A o) m1 (ueffect A o u) (k + if is_append o then 1 else 0)); eauto.
      * intros l. destruct o; cbn [ueffect]; auto; try discriminate. unfold nupd. destruct (_ =? _); auto.
      * now apply effect_bounded.
      * unfold appends. destruct (is_append o); cbn in Hk; lia.
Qed.
End Inv.

(** *** Facts used by the property statements. *)
Lemma shows_weaken a b o A r : shows a b A o r -> shows false false A o r /\ (shows a false A o r) /\ shows false b A o r.
Proof.
  destruct o; cbn [shows]; auto.
  - intros (s & k & H1 & H2 & H3). split; [|split; [|]]; exists s, k; repeat split; auto; discriminate.
  - intros (x & H1 & H2 & H3). split; [|split; [|]]; exists x; repeat split; auto; discriminate.
Qed.
Lemma explains_weaken a b A ops outs A' : explains a b A ops outs A' -> explains a false A ops outs A'.
Proof. induction 1 as [|A o r ops rs A' Hs Hx IH]; constructor; auto. apply shows_weaken in Hs. tauto. Qed.
Lemma explains_weaken2 a b A ops outs A' : explains a b A ops outs A' -> explains false b A ops outs A'.
Proof. induction 1 as [|A o r ops rs A' Hs Hx IH]; constructor; auto. apply shows_weaken in Hs. tauto. Qed.

Lemma run_app debug fuel ops2 : forall ops1 m,
  run debug fuel m (ops1 ++ ops2) =
  do (m1, o1) <- run debug fuel m ops1; do (m2, o2) <- run debug fuel m1 ops2; Ok (m2, o1 ++ o2).
Proof.
  induction ops1 as [|o ops1 IH]; intros m; cbn [app run bind].
  - destruct (run debug fuel m ops2) as [[m2 o2]| |]; reflexivity.
  - destruct (step debug fuel m o) as [[m1 r]| |]; cbn [bind]; try reflexivity. rewrite IH.
    destruct (run debug fuel m1 ops1) as [[m2 o2]| |]; cbn [bind]; try reflexivity.
    destruct (run debug fuel m2 ops2) as [[m3 o3]| |]; reflexivity.
Qed.
Lemma after_bounded : forall ops A k, bounded A k -> bounded (after A ops) (k + appends ops).
Proof.
  induction ops as [|o ops IH]; intros A k H; cbn [after].
  - unfold appends. cbn. now rewrite Nat.add_0_r.
  - apply (effect_bounded _ o) in H. apply IH in H. unfold appends in *. cbn [filter].
    destruct (is_append o); cbn [length]; intros l s E; apply H in E; lia.
Qed.

(** A legal history followed by a legal suffix. *)
Lemma run_then debug fuel ops ops2 : legal astate0 ops -> legal (after astate0 ops) ops2 -> appends ops + appends ops2 < fuel ->
  exists m outs m1 outs2, run debug fuel mem0 ops = Ok (m, outs) /\
    inv debug (after astate0 ops) m (uafter astate0 ops (fun _ => 0)) /\
    run debug fuel m ops2 = Ok (m1, outs2) /\
    explains false debug (after astate0 ops) ops2 outs2 (after (after astate0 ops) ops2) /\
    run debug fuel mem0 (ops ++ ops2) = Ok (m1, outs ++ outs2).
Proof.
  intros H1 H2 Hf.
  destruct (run_ok debug fuel ops astate0 mem0 (fun _ => 0) 0 (inv0 debug) H1) as (m & outs & E & Hx & Hi); [discriminate|lia|].
  destruct (run_ok debug fuel ops2 _ m _ (appends ops) Hi H2) as (m1 & outs2 & E2 & Hx2 & Hi2).
  { apply (after_bounded ops astate0 0). discriminate. } { exact Hf. }
  exists m, outs, m1, outs2. repeat (split; [assumption|]). rewrite run_app, E. cbn [bind]. rewrite E2. reflexivity.
Qed.

Lemma length_value :
  forall (debug : bool) (ops : list op) (fuel : nat) (l : nat), legal astate0 ops -> appends ops < fuel ->
  after astate0 ops l <> None ->
  exists m outs s, run debug fuel mem0 (ops ++ [LLength l]) =
      Ok (m, outs ++ [RNum ((N.of_nat (length s) + N.of_nat (uafter astate0 ops (fun _ => 0%nat) l)) mod 2 ^ 64)%N]) /\
    after astate0 ops l = Some s.
Proof.
  intros debug ops fuel l Hl Hf Hn.
  destruct (run_then debug fuel ops [LLength l] Hl) as (m & outs & m1 & outs2 & E & Hi & E2 & _ & E3).
  { cbn. auto. } { unfold appends at 2. cbn. lia. }
  destruct (step_ok debug fuel _ m _ (LLength l) Hi Hn) as (m2 & r & Es & _ & _ & Hlen).
  { intros l' s' E'. pose proof (after_bounded ops astate0 0 ltac:(discriminate) l' s' E'). lia. }
  destruct (Hlen l eq_refl) as (s & Hs & ->). exists m1, outs, s. split; [|exact Hs].
  rewrite E3. cbn [run] in E2. rewrite Es in E2. cbn [bind] in E2. injection E2 as <- <-. reflexivity.
Qed.

Ltac inv_explains :=
  repeat match goal with H : explains _ _ _ (_ :: _) _ _ |- _ => inversion H; subst; clear H end;
  repeat match goal with H : explains _ _ _ [] _ _ |- _ => inversion H; subst; clear H end.

Lemma erase_if_ok :
  forall (debug : bool) (ops : list op) (fuel : nat) (dir : bool) (pred : nat -> bool) (l : nat) (s : list nat),
  legal astate0 ops -> appends ops < fuel -> after astate0 ops l = Some s ->
  exists m outs, run debug fuel mem0 (ops ++ [LEraseIf dir pred l; LIterate true l]) =
    Ok (m, outs ++ [RNodes (if dir then s else rev s); RNodes (filter (fun x => negb (pred x)) s)]).
Proof.
  intros debug ops fuel dir pred l s Hl Hf Hs.
  destruct (run_then debug fuel ops [LEraseIf dir pred l; LIterate true l] Hl) as (m & outs & m1 & outs2 & E & Hi & E2 & Hx & E3).
  { cbn. rewrite Hs, set_list_eq. cbn. repeat split; discriminate. } { unfold appends at 2. cbn. lia. }
  exists m1, outs. rewrite E3. inv_explains. do 2 f_equal.
  repeat match goal with H : shows _ _ _ _ _ |- _ => cbn [shows] in H; destruct H as (? & ? & ->) end.
  cbn [effect] in *. rewrite Hs in *. rewrite set_list_eq in *. cbn [option_map] in *.
  repeat match goal with H : Some _ = Some _ |- _ => injection H as <- end. reflexivity.
Qed.

Lemma appends_app a b : appends (a ++ b) = appends a + appends b.
Proof. unfold appends. rewrite filter_app, app_length. reflexivity. Qed.

Lemma append_all l' : forall s2 A s', A l' = Some s' -> NoDup s2 -> (forall n, In n s2 -> ~ in_some A n) ->
  legal A (map (LAppend l') s2 ++ [LIterate true l']) /\
  forall b outs A', explains false b A (map (LAppend l') s2 ++ [LIterate true l']) outs A' ->
    outs = map (fun _ => RUnit) s2 ++ [RNodes (s' ++ s2)].
Proof.
  induction s2 as [|n s2 IH]; intros A s' Hs Hnd Hni.
  - cbn [map app legal pre]. split; [rewrite Hs; repeat split; discriminate|].
    intros b outs A' H. inv_explains. match goal with H : shows _ _ _ _ _ |- _ => cbn [shows] in H; destruct H as (s & E & ->) end. rewrite app_nil_r. congruence.
  - cbn [map app legal pre]. inversion Hnd as [|? ? Hn Hnd']; subst.
    destruct (IH (effect A (LAppend l' n)) (s' ++ [n])) as [L1 L2].
    { cbn [effect]. rewrite Hs. apply set_list_eq. } { exact Hnd'. }
    { intros k Hk (l & s & Es & Hi). cbn [effect] in Es. unfold set_list in Es.
      destruct (Nat.eqb_spec l' l) as [<-|Hne].
      - rewrite Hs in Es. injection Es as <-. apply in_app_or in Hi as [Hi|[<-|[]]]; [|contradiction].
        apply (Hni k); [now right|]. exists l', s'. auto.
      - apply (Hni k); [now right|]. exists l, s. auto. }
    split.
    + split; [|exact L1]. split; [rewrite Hs; discriminate|]. apply Hni. now left.
    + intros b outs A' H. inversion H as [|? ? r ? rs ? Hsh Hex]; subst. cbn [shows] in Hsh. subst r.
      rewrite (L2 _ _ _ Hex), <- app_assoc. reflexivity.
Qed.

Lemma explains_app a b : forall ops1 ops2 A outs A', explains a b A (ops1 ++ ops2) outs A' ->
  exists o1 o2, outs = o1 ++ o2 /\ explains a b A ops1 o1 (after A ops1) /\ explains a b (after A ops1) ops2 o2 A'.
Proof.
  induction ops1 as [|o ops1 IH]; intros ops2 A outs A' H; cbn [app after] in *.
  - exists [], outs. split; [reflexivity|]. split; [constructor|exact H].
  - inversion H as [|? ? r ? rs ? Hsh Hex]; subst. apply IH in Hex as (o1 & o2 & -> & H1 & H2).
    exists (r :: o1), o2. split; [reflexivity|]. split; [constructor; auto|exact H2].
Qed.
Lemma isIn_none : forall s A outs A', (forall n, In n s -> ~ in_some A n) ->
  after A (map LIsInList s) = A /\
  (explains false true A (map LIsInList s) outs A' -> outs = map (fun _ => RBool false) s).
Proof.
  induction s as [|n s IH]; intros A outs A' Hni; cbn [map after effect]; split; auto.
  - intros H. inversion H. reflexivity.
  - apply (IH A [] A). intros k Hk. apply Hni. now right.
  - intros H. inversion H as [|? ? r ? rs ? Hsh Hex]; subst. cbn [shows effect] in *.
    destruct Hsh as (x & -> & _ & Hb). destruct x; [exfalso; apply (Hni n); [now left|auto]|]. f_equal.
    eapply IH; [|exact Hex]. intros k Hk. apply Hni. now right.
Qed.
Lemma legal_app : forall ops1 ops2 A, legal A (ops1 ++ ops2) <-> legal A ops1 /\ legal (after A ops1) ops2.
Proof. induction ops1 as [|o ops1 IH]; intros ops2 A; cbn; [tauto|]. rewrite IH. tauto. Qed.

Lemma destroy_unlinks :
  forall (ops : list op) (fuel : nat) (l l' : nat) (s s' : list nat),
  legal astate0 ops -> appends ops + length s < fuel -> l <> l' ->
  after astate0 ops l = Some s -> after astate0 ops l' = Some s' ->
  exists m outs, run true fuel mem0 (ops ++ LDelete l :: map LIsInList s ++ map (LAppend l') s ++ [LIterate true l']) =
    Ok (m, outs ++ RUnit :: map (fun _ => RBool false) s ++ map (fun _ => RUnit) s ++ [RNodes (s' ++ s)]).
Proof.
  intros ops fuel l l' s s' Hl Hf Hne Hs Hs'.
  destruct (run_ok true fuel ops astate0 mem0 (fun _ => 0) 0 (inv0 true) Hl) as (m0 & outs0 & _ & _ & Hi); [discriminate|lia|].
  set (A1 := set_list (after astate0 ops) l None).
  assert (Hni : forall n, In n s -> ~ in_some A1 n).
  { intros n Hn (k & sk & Ek & Hk). unfold A1 in Ek. destruct (Nat.eq_dec l k) as [<-|Hnk]; [rewrite set_list_eq in Ek; discriminate|].
    rewrite set_list_ne in Ek by auto. apply Hnk. apply (i_disj _ _ _ _ Hi l k n); [exists s|exists sk]; auto. }
  destruct (append_all l' s A1 s') as [L1 L2].
  { unfold A1. now rewrite set_list_ne. } { exact (i_nodup _ _ _ _ Hi _ _ Hs). } { exact Hni. }
  destruct (isIn_none s A1 [] A1 Hni) as [Ha _].
  assert (Hia : forall B k, legal B (map LIsInList k)) by (intros B k; revert B; induction k; cbn; auto).
  destruct (run_then true fuel ops (LDelete l :: map LIsInList s ++ map (LAppend l') s ++ [LIterate true l']) Hl)
    as (m & outs & m1 & outs2 & _ & _ & _ & Hx & E3).
  { split; [cbn; congruence|]. cbn [effect]. fold A1. apply legal_app. split; [apply Hia|]. now rewrite Ha. }
  { change (appends (LDelete l :: ?x)) with (appends x).
    rewrite !appends_app. unfold appends at 2 4. cbn [filter is_append length].
    assert (X : forall k, appends (map LIsInList k) = 0) by (induction k; cbn; auto).
    assert (Y : forall k, appends (map (LAppend l') k) = length k) by (induction k as [|a k IHk]; cbn; auto; unfold appends in *; cbn; now rewrite IHk).
    unfold appends in X, Y. unfold appends in *. rewrite ?X, ?Y. lia. }
  exists m1, outs. rewrite E3. do 3 f_equal.
  inversion Hx as [|? ? r ? rs ? Hsh Hex]; subst. cbn [shows effect] in *. subst r. f_equal. fold A1 in Hex.
  apply explains_app in Hex as (o1 & o2 & -> & X1 & X2). rewrite Ha in X1, X2.
  destruct (isIn_none s A1 o1 A1 Hni) as [_ Ho]. rewrite (Ho X1), (L2 _ _ _ X2). reflexivity.
Qed.

(** Histories whose only way out is removeFromParentList behave alike in debug and release. *)
Lemma iter_const fuel : forall dir m l it acc, iter_loop true fuel dir (fun _ => false) m l it acc = iter_loop false fuel dir (fun _ => false) m l it acc.
Proof. induction fuel as [|f IH]; intros; cbn; [reflexivity|]. destruct ptr_eqb; [reflexivity|]. destruct (deref it); cbn; try reflexivity.
  destruct (advance dir m it); cbn; auto. Qed.
Lemma step_release fuel m o x :
  (match o with LRemove _ _ | LEraseIf _ _ _ | LDelete _ => False | _ => True end) ->
  step true fuel m o = Ok x -> step false fuel m o = Ok x.
Proof.
  destruct o as [l|l|l n|l n|n|dir l|dir pred l|l|l|n]; intros Ho; try contradiction; cbn [step]; auto.
  - unfold append. cbv zeta.
    change (rd_next m (Some (Node n))) with (Ok (nxt m (Node n))). change (rd_prev m (Some (Node n))) with (Ok (prv m (Node n))).
    cbn [bind].
    destruct (ptr_eqb (nxt m (Node n)) None); cbn; try discriminate.
    destruct (ptr_eqb (prv m (Node n)) None); cbn; try discriminate. auto.
  - unfold iterate. destruct (begin_ dir m l); cbn [bind]; auto. now rewrite iter_const.
  - unfold isInList, rd_next, rd_prev. cbn [chk alive bind].
    destruct (Bool.eqb _ _); cbn; try discriminate. auto.
Qed.
Lemma isInList_exact_unlink :
  forall (debug : bool) (ops : list op) (fuel : nat), legal astate0 ops -> appends ops < fuel ->
  Forall (fun o => match o with LRemove _ _ | LEraseIf _ _ _ | LDelete _ => False | _ => True end) ops ->
  exists m outs A, run debug fuel mem0 ops = Ok (m, outs) /\ explains false true astate0 ops outs A.
Proof.
  intros debug ops fuel Hl Hf Ho.
  destruct (run_ok true fuel ops astate0 mem0 (fun _ => 0) 0 (inv0 true) Hl) as (m & outs & E & Hx & _); [discriminate|exact Hf|].
  exists m, outs, (after astate0 ops). split; [|exact Hx]. destruct debug; [exact E|]. clear Hx Hl Hf. revert E. generalize mem0 as m0. revert outs.
  induction Ho as [|o ops Ho _ IH]; intros outs m0 E; cbn [run] in *; [exact E|].
  destruct (step true fuel m0 o) as [[m1 r]| |] eqn:Es; cbn [bind] in E; try discriminate.
  rewrite (step_release _ _ _ _ Ho Es). cbn [bind].
  destruct (run true fuel m1 ops) as [[m2 rs]| |] eqn:Er; cbn [bind] in E; try discriminate.
  injection E as <- <-. now rewrite (IH _ _ Er).
Qed.
