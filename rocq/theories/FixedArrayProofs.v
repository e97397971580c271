(** Refinement of the list specification by the FixedArray model, with an exact block ledger. *)
From Verif Require Import Base FixedArrayModel FixedArraySpec.

Section Proofs.
Variable V : Type.
Variable dflt : V.
Variable veq : V -> V -> bool.
Variable w sz : N.
Variable debug fallible : bool.
Variable alloc_ok : nat -> bool.
Hypothesis sz_pos : (0 < sz)%N.
Hypothesis alloc_good : forall n, alloc_ok n = true.
Notation state := (state V).
Notation vals := (vals V).

Definition own (s : state) (v : var) : option blk :=
  match vars s v with Some a => data_ a | None => None end.

Definition agrees (s : state) (m : vals) (v : var) : Prop :=
  match vars s v, m v with
  | None, None => True
  | Some a, Some (l, b) =>
      size_ a = length l /\ (sz * N.of_nat (length l) < 2 ^ w)%N /\
      match data_ a with
      | None => l = [] /\ b = false
      | Some k => b = true /\ In k (live s) /\ heap s k = map Some l
      end
  | _, _ => False
  end.

Record inv (s : state) (m : vals) (lost : list blk) : Prop := {
  i_agree : forall v, agrees s m v;
  i_fresh : forall i, In i (live s) -> i < nalloc s;
  i_nodup : NoDup (live s);
  i_inj : forall v u i, own s v = Some i -> own s u = Some i -> v = u;
  i_lnodup : NoDup lost;
  i_lost : forall i, In i lost -> In i (live s);
  i_disj : forall v i, own s v = Some i -> ~ In i lost;
  i_cover : forall i, In i (live s) -> In i lost \/ exists v, own s v = Some i
}.

Lemma own_ext (s s' : state) v : vars s v = vars s' v -> own s v = own s' v.
Proof. unfold own. now intros ->. Qed.
Lemma vars_set (s : state) v a u : vars (set_var s v a) u = if u =? v then a else vars s u.
Proof. reflexivity. Qed.
Lemma vars_set_eq (s : state) v a : vars (set_var s v a) v = a.
Proof. rewrite vars_set. now rewrite Nat.eqb_refl. Qed.
Lemma vars_set_ne (s : state) v a u : u <> v -> vars (set_var s v a) u = vars s u.
Proof. intros H. rewrite vars_set. now apply Nat.eqb_neq in H as ->. Qed.
Lemma put_eq (m : vals) v x : put m v x v = x.
Proof. unfold put. now rewrite Nat.eqb_refl. Qed.
Lemma put_ne (m : vals) v x u : u <> v -> put m v x u = m u.
Proof. intros H. unfold put. now apply Nat.eqb_neq in H as ->. Qed.

Lemma own_live s m lost v b : inv s m lost -> own s v = Some b -> In b (live s).
Proof.
  intros Hi Ho. pose proof (i_agree _ _ _ Hi v) as A. unfold agrees in A. unfold own in Ho.
  destruct (vars s v) as [a|]; [|discriminate]. destruct (m v) as [[l c]|]; [|tauto].
  rewrite Ho in A. tauto.
Qed.

Lemma inv_ext s s' m m' lost :
  (forall v, vars s v = vars s' v) -> (forall k, In k (live s) -> heap s k = heap s' k) ->
  live s = live s' -> nalloc s = nalloc s' ->
  (forall v, m v = m' v) -> inv s m lost -> inv s' m' lost.
Proof.
  intros Hv Hh Hl Hn Hm [A B C E F G H K].
  assert (Ho : forall v, own s v = own s' v) by (intros; apply own_ext; auto).
  split; intros.
  - specialize (A v). unfold agrees in *. rewrite <- Hv, <- Hm, <- Hl.
    destruct (vars s v) as [a|], (m v) as [[l b]|]; auto. destruct (data_ a); auto.
    rewrite <- Hh; tauto.
  - rewrite <- Hl in *. rewrite <- Hn. auto.
  - now rewrite <- Hl.
  - rewrite <- Ho in *. eauto.
  - auto.
  - rewrite <- Hl. auto.
  - rewrite <- Ho in *. eauto.
  - rewrite <- Hl in *. destruct (K _ H0) as [?|[v ?]]; auto. right. exists v. now rewrite <- Ho.
Qed.

(** The variable v leaves the picture; its block (if any) becomes lost. *)
Definition lost_of (s : state) (v : var) : list blk := match own s v with Some i => [i] | None => [] end.
Lemma in_lost_of s v i : In i (lost_of s v) <-> own s v = Some i.
Proof.
  unfold lost_of. destruct (own s v); cbn; split; intros; try tauto; try congruence.
  - destruct H; [congruence|tauto].
  - left; congruence.
Qed.

Lemma inv_drop s m lost v : inv s m lost -> inv (set_var s v None) (put m v None) (lost_of s v ++ lost).
Proof.
  intros Hi. pose proof Hi as [A B C E F G H K].
  assert (Hov : own (set_var s v None) v = None) by (unfold own; now rewrite vars_set_eq).
  assert (Hon : forall u, u <> v -> own (set_var s v None) u = own s u)
    by (intros; apply own_ext; now apply vars_set_ne).
  split; cbn [live nalloc heap set_var]; auto.
  - intros u. specialize (A u). unfold agrees in *. rewrite vars_set. unfold put. destruct (u =? v); auto.
  - intros u u' i Hu Hu'. destruct (Nat.eq_dec u v) as [->|]; [congruence|].
    destruct (Nat.eq_dec u' v) as [->|]; [congruence|]. rewrite Hon in * by auto. eauto.
  - unfold lost_of. destruct (own s v) eqn:Eo; cbn; auto. constructor; eauto.
  - intros i. rewrite in_app_iff, in_lost_of. intros [Ho|?]; auto. exact (own_live _ _ _ _ _ Hi Ho).
  - intros u i Hu. destruct (Nat.eq_dec u v) as [->|Hne]; [congruence|].
    rewrite Hon in Hu by auto. rewrite in_app_iff, in_lost_of. intros [?|?].
    + apply Hne. eauto.
    + eapply H; eauto.
  - intros i Hin. destruct (K _ Hin) as [?|[u Hu]]; [left; rewrite in_app_iff; auto|].
    destruct (Nat.eq_dec u v) as [->|Hne].
    + left. rewrite in_app_iff, in_lost_of. auto.
    + right. exists u. now rewrite Hon.
Qed.

(** Adding a variable without storage. *)
Lemma inv_add_empty s m lost v :
  inv s m lost -> m v = None -> inv (set_var s v (Some (Arr 0 None))) (put m v (Some ([], false))) lost.
Proof.
  intros [A B C E F G H K] Hm.
  assert (Hv : vars s v = None).
  { specialize (A v). unfold agrees in A. rewrite Hm in A. destruct (vars s v); tauto. }
  assert (Ho : forall u, own (set_var s v (Some (Arr 0 None))) u = own s u).
  { intros u. destruct (Nat.eq_dec u v) as [->|Hne].
    - unfold own. rewrite vars_set_eq, Hv. reflexivity.
    - apply own_ext. now apply vars_set_ne. }
  split; cbn [live nalloc heap set_var]; auto.
  - intros u. specialize (A u). unfold agrees in *. rewrite vars_set. unfold put.
    destruct (u =? v); auto. cbn. split; auto. split; auto.
    rewrite N.mul_0_r. apply N.neq_0_lt_0. apply N.pow_nonzero. lia.
  - intros u u' i. rewrite !Ho. eauto.
  - intros u i. rewrite Ho. eauto.
  - intros i Hin. destruct (K _ Hin) as [?|[u Hu]]; auto. right. exists u. now rewrite Ho.
Qed.

(** Adding a variable that owns a block known to nobody else ([lost] includes it: it is adopted). *)
Lemma inv_adopt s m lost v b l :
  inv s m (b :: lost) -> m v = None -> heap s b = map Some l -> (sz * N.of_nat (length l) < 2 ^ w)%N ->
  inv (set_var s v (Some (Arr (length l) (Some b)))) (put m v (Some (l, true))) lost.
Proof.
  intros [A B C E F G H K] Hm Hb Hf.
  assert (Hv : vars s v = None).
  { specialize (A v). unfold agrees in A. rewrite Hm in A. destruct (vars s v); tauto. }
  assert (Hov : own (set_var s v (Some (Arr (length l) (Some b)))) v = Some b)
    by (unfold own; now rewrite vars_set_eq).
  assert (Hon : forall u, u <> v -> own (set_var s v (Some (Arr (length l) (Some b)))) u = own s u)
    by (intros; apply own_ext; now apply vars_set_ne).
  assert (Hbl : In b (live s)) by (apply G; now left).
  inversion F as [|? ? Fb Fl]; subst.
  split; cbn [live nalloc heap set_var]; auto.
  - intros u. specialize (A u). unfold agrees in *. rewrite vars_set. unfold put.
    destruct (u =? v); auto. cbn. auto.
  - intros u u' i Hu Hu'.
    destruct (Nat.eq_dec u v) as [->|], (Nat.eq_dec u' v) as [->|]; auto.
    + rewrite Hon in Hu' by auto. exfalso. apply (H _ _ Hu'). left; congruence.
    + rewrite Hon in Hu by auto. exfalso. apply (H _ _ Hu). left; congruence.
    + rewrite Hon in * by auto. eauto.
  - intros i Hin. apply G. now right.
  - intros u i Hu. destruct (Nat.eq_dec u v) as [->|Hne].
    + assert (i = b) as -> by congruence. auto.
    + rewrite Hon in Hu by auto. intros Hin. apply (H _ _ Hu). now right.
  - intros i Hin. destruct (K _ Hin) as [[<-|?]|[u Hu]]; auto.
    + right. eauto.
    + right. exists u. rewrite Hon; auto. intros ->. unfold own in Hu. rewrite Hv in Hu. discriminate.
Qed.

(** A lost block may change contents, or be freed. *)
Lemma inv_lost_heap s m lost b c : inv s m lost -> In b lost -> inv (set_heap s b c) m lost.
Proof.
  intros [A B C E F G H K] Hb. split; auto; try exact E; try exact H; try exact K.
  intros u. specialize (A u). unfold agrees in *. cbn [vars live heap set_heap].
  destruct (vars s u) as [a|] eqn:Ev, (m u) as [[l x]|]; auto.
  destruct (data_ a) as [k|] eqn:Ed; auto. destruct (Nat.eqb_spec k b) as [->|]; auto.
  exfalso. apply (H u b); auto. unfold own. now rewrite Ev.
Qed.

Lemma inv_lost_free s m lost b :
  inv s m (b :: lost) -> inv (State (vars s) (heap s) (remove Nat.eq_dec b (live s)) (nalloc s)) m lost.
Proof.
  intros [A B C E F G H K]. inversion F as [|? ? Fb Fl]; subst.
  assert (Hrm : forall j, In j (remove Nat.eq_dec b (live s)) <-> In j (live s) /\ j <> b).
  { intros j. split; [apply in_remove|]. intros [? ?]. now apply in_in_remove. }
  split; cbn [vars live heap nalloc]; auto.
  - intros u. specialize (A u). unfold agrees in *. cbn [vars live heap].
    destruct (vars s u) as [a|] eqn:Ev, (m u) as [[l x]|]; auto.
    destruct (data_ a) as [k|] eqn:Ed; auto. rewrite Hrm.
    assert (k <> b). { intros ->. apply (H u b); [unfold own; now rewrite Ev|now left]. }
    tauto.
  - intros i Hi. apply Hrm in Hi. apply B. tauto.
  - clear -C. induction C as [|h t Hh Ht IH]; cbn; [constructor|].
    destruct (Nat.eq_dec b h); auto. constructor; auto. intros Hi. apply in_remove in Hi. tauto.
  - intros i Hi. apply Hrm. split; [apply G; now right|]. intros ->. auto.
  - intros u i Hu Hi. apply (H u i Hu). now right.
  - intros i Hi. apply Hrm in Hi as [Hi Hne]. destruct (K _ Hi) as [[?|?]|?]; auto; congruence.
Qed.

Lemma inv_malloc s m lost c :
  inv s m lost ->
  inv (State (vars s) (fun u => if u =? nalloc s then c else heap s u) (nalloc s :: live s) (S (nalloc s)))
      m (nalloc s :: lost).
Proof.
  intros Hi. pose proof Hi as [A B C E F G H K].
  assert (Hfr : ~ In (nalloc s) (live s)) by (intros Hin; apply B in Hin; lia).
  split; cbn [vars live heap nalloc]; auto.
  - intros u. specialize (A u). unfold agrees in *. cbn [vars live heap].
    destruct (vars s u) as [a|] eqn:Ev, (m u) as [[l x]|]; auto.
    destruct (data_ a) as [k|] eqn:Ed; auto.
    destruct (Nat.eqb_spec k (nalloc s)) as [->|].
    + tauto.
    + cbn. tauto.
  - intros i [<-|Hin]; [lia|]. apply B in Hin. lia.
  - constructor; auto.
  - constructor; auto.
  - intros i [<-|Hin]; cbn; auto.
  - intros u i Hu [<-|Hin].
    + apply Hfr. exact (own_live _ _ _ _ _ Hi Hu).
    + exact (H u i Hu Hin).
  - intros i [<-|Hin]; [left; now left|]. destruct (K _ Hin) as [?|[u Hu]]; [left; now right|].
    right. exists u. exact Hu.
Qed.

(** * Loops *)
Lemma slots_ok (s : state) b : In b (live s) -> slots s (Some b) = Ok (b, heap s b).
Proof. intros H. unfold slots. destruct (in_dec Nat.eq_dec b (live s)); [auto|tauto]. Qed.

Lemma upd_app_mid {A} (l1 l2 : list A) x y : upd (l1 ++ x :: l2) (length l1) y = l1 ++ y :: l2.
Proof. induction l1; cbn; auto. now rewrite IHl1. Qed.
Lemma nth_app_mid {A} (l1 l2 : list A) x : nth_error (l1 ++ x :: l2) (length l1) = Some x.
Proof. rewrite nth_error_app2 by lia. now rewrite Nat.sub_diag. Qed.

Lemma get_mid {A} (l1 l2 : list A) x n : length l1 = n -> slot_get (l1 ++ x :: l2) n = Ok x.
Proof. intros <-. apply slot_get_ok, nth_app_mid. Qed.
Lemma set_mid {A} (l1 l2 : list A) x y n : length l1 = n -> slot_set (l1 ++ x :: l2) n y = Ok (l1 ++ y :: l2).
Proof. intros <-. rewrite slot_set_ok by (rewrite app_length; cbn; lia). now rewrite upd_app_mid. Qed.

(** Two states that differ only in the contents of block b. *)
Definition same_but (b : blk) (s s' : state) : Prop :=
  vars s' = vars s /\ live s' = live s /\ nalloc s' = nalloc s /\ (forall k, k <> b -> heap s' k = heap s k).
Lemma same_but_refl b s : same_but b s s.
Proof. repeat split; auto. Qed.
Lemma same_but_trans b s s1 s2 : same_but b s s1 -> same_but b s1 s2 -> same_but b s s2.
Proof.
  intros (A & B & C & D) (A' & B' & C' & D'). repeat split; try congruence.
  intros k Hk. rewrite D', D; auto.
Qed.
Lemma same_but_set b (s : state) c : same_but b s (set_heap s b c).
Proof. repeat split; auto. intros k Hk. cbn. now apply Nat.eqb_neq in Hk as ->. Qed.

Lemma construct_loop_ok b val (l : list V) : forall rest done s,
  l = done ++ rest ->
  In b (live s) ->
  heap s b = map Some done ++ repeat None (length rest) ->
  (forall s1 i x, same_but b s s1 -> nth_error l i = Some x -> val s1 i = Ok x) ->
  exists s', construct_loop (length rest) (length done) s (Some b) val = Ok s'
    /\ same_but b s s' /\ heap s' b = map Some l.
Proof.
  induction rest as [|x rest IH]; intros done s El Hl Hh Hv; cbn [construct_loop length].
  - exists s. split; auto. split; [apply same_but_refl|]. rewrite Hh, El. cbn. now rewrite !app_nil_r.
  - rewrite (Hv s (length done) x (same_but_refl _ _)).
    2:{ rewrite El. apply nth_app_mid. }
    cbn [bind]. unfold place. rewrite slots_ok by auto. cbn [bind]. rewrite Hh. cbn [length repeat].
    assert (Hlen : length (map (@Some V) done) = length done) by apply map_length.
    rewrite get_mid by exact Hlen. cbn [bind]. rewrite set_mid by exact Hlen. cbn [bind].
    replace (length done + 1) with (length (done ++ [x])) by (rewrite app_length; cbn; lia).
    destruct (IH (done ++ [x]) (set_heap s b (map Some done ++ Some x :: repeat None (length rest))))
      as (s' & H1 & H2 & H3).
    + rewrite El, <- app_assoc. reflexivity.
    + exact Hl.
    + cbn. rewrite Nat.eqb_refl, map_app, <- app_assoc. reflexivity.
    + intros s1 i y Hs. apply Hv. eapply same_but_trans; [apply same_but_set|exact Hs].
    + exists s'. split; auto. split; auto. eapply same_but_trans; [apply same_but_set|exact H2].
Qed.

Lemma destruct_loop_ok b : forall (l : list V) n s,
  In b (live s) ->
  heap s b = repeat None n ++ map Some l ->
  exists s', destruct_loop (length l) n s (Some b) = Ok s'
    /\ same_but b s s' /\ heap s' b = repeat None (n + length l).
Proof.
  induction l as [|x l IH]; intros n s Hl Hh; cbn [destruct_loop length map] in *.
  - exists s. split; auto. split; [apply same_but_refl|]. rewrite Hh, app_nil_r. f_equal. lia.
  - unfold destroy. rewrite slots_ok by auto. cbn [bind]. rewrite Hh.
    assert (Hlen : length (repeat (@None V) n) = n) by apply repeat_length.
    rewrite get_mid by exact Hlen. cbn [bind]. rewrite set_mid by exact Hlen. cbn [bind].
    replace (n + 1) with (S n) by lia.
    destruct (IH (S n) (set_heap s b (repeat None n ++ None :: map Some l))) as (s' & H1 & H2 & H3).
    + exact Hl.
    + cbn [heap set_heap]. rewrite Nat.eqb_refl.
      change (repeat (@None V) (S n)) with (None :: repeat (@None V) n). rewrite repeat_cons, <- app_assoc. reflexivity.
    + exists s'. split; auto. split; [eapply same_but_trans; [apply same_but_set|exact H2]|].
      rewrite H3. f_equal. lia.
Qed.

(** * Reading *)
Lemma at_ok s m lost v l c i x :
  inv s m lost -> m v = Some (l, c) -> nth_error l i = Some x -> at_ debug s v i = Ok x.
Proof.
  intros Hi Hm Hx. pose proof (i_agree _ _ _ Hi v) as A. unfold agrees in A. rewrite Hm in A.
  unfold at_, get_arr. destruct (vars s v) as [a|]; [|tauto]. cbn [bind].
  destruct A as (Hs & _ & Hd).
  assert (i < length l) by (apply nth_error_Some; congruence).
  replace (assert_ debug (i <? size_ a)) with (@Ok unit tt).
  2:{ unfold assert_. rewrite Hs. destruct (Nat.ltb_spec i (length l)); [|lia]. cbn. now rewrite andb_false_r. }
  cbn [bind]. destruct (data_ a) as [k|]; [|destruct Hd as [-> _]; cbn in *; lia].
  destruct Hd as (_ & Hk & Hh). unfold read. rewrite slots_ok by auto. cbn [bind]. rewrite Hh.
  rewrite (slot_get_ok _ _ (Some x)); [reflexivity|]. now apply map_nth_error.
Qed.

(** Reading the elements of u from any state in which u and its block are unchanged. *)
Lemma at_frame s m lost u l c :
  inv s m lost -> m u = Some (l, c) ->
  forall s1 i x, vars s1 u = vars s u ->
    (forall k, own s u = Some k -> In k (live s1) /\ heap s1 k = heap s k) ->
    nth_error l i = Some x -> at_ debug s1 u i = Ok x.
Proof.
  intros Hi Hm s1 i x Hv Hf Hx. rewrite <- (at_ok s m lost u l c i x Hi Hm Hx).
  unfold at_, get_arr. rewrite Hv. destruct (vars s u) as [a|] eqn:Ev; auto. cbn [bind].
  destruct (assert_ debug (i <? size_ a)); auto. cbn [bind]. unfold read, slots.
  destruct (data_ a) as [k|] eqn:Ed; auto.
  assert (Ho : own s u = Some k) by (unfold own; now rewrite Ev).
  destruct (Hf k Ho) as [Hl ->]. pose proof (own_live _ _ _ _ _ Hi Ho).
  destruct (in_dec Nat.eq_dec k (live s1)); [|tauto].
  destruct (in_dec Nat.eq_dec k (live s)); [|tauto]. reflexivity.
Qed.

(** * The allocating constructors *)
Lemma build_ok s m lost v l val :
  inv (set_var s v None) (put m v None) lost ->
  (sz * N.of_nat (length l) < 2 ^ w)%N ->
  (forall s1 i x, (forall u, u <> v -> vars s1 u = vars s u) ->
     (forall k, In k (live s) -> In k (live s1) /\ heap s1 k = heap s k) ->
     nth_error l i = Some x -> val s1 i = Ok x) ->
  exists s', build w sz fallible alloc_ok s v (length l) val = Ok s' /\ inv s' (put m v (Some (l, true))) lost.
Proof.
  intros Hi Hf Hv. unfold build, allocate, am_malloc. rewrite alloc_good. cbn [bind].
  set (c := repeat None (N.to_nat (umul w sz (N.of_nat (length l)) / sz))).
  assert (Hc : c = repeat (@None V) (length l)).
  { unfold c, umul. rewrite N.mod_small by exact Hf. f_equal.
    rewrite N.mul_comm, N.div_mul by lia. apply Nat2N.id. }
  set (b := nalloc s).
  set (s0 := State (vars s) (fun u => if u =? b then c else heap s u) (b :: live s) (S b)).
  set (s1 := set_var s0 v (Some (Arr (length l) (Some b)))).
  assert (Hsv : vars s1 v = Some (Arr (length l) (Some b))) by (unfold s1; apply vars_set_eq).
  unfold get_arr. rewrite Hsv. cbn [bind size_ data_].
  assert (Hfr : ~ In b (live s)).
  { intros Hin. apply (i_fresh _ _ _ Hi) in Hin. cbn in Hin. unfold b in Hin. lia. }
  destruct (construct_loop_ok b val l l [] s1) as (s' & H1 & H2 & H3).
  - reflexivity.
  - cbn. now left.
  - cbn [heap s1 set_var s0]. rewrite Nat.eqb_refl. exact Hc.
  - intros s2 i x (Ha & Hb & _ & Hd) Hx. apply Hv; auto.
    + intros u Hu. rewrite Ha. unfold s1. rewrite vars_set_ne by auto. reflexivity.
    + intros k Hk. rewrite Hb. cbn. split; [now right|].
      assert (k <> b) by (intros Ek; rewrite Ek in Hk; tauto). rewrite Hd by auto. cbn.
      destruct (Nat.eqb_spec k b); congruence.
  - cbn [length] in H1. exists s'. split; [exact H1|].
    pose proof (inv_malloc _ _ _ (map Some l) Hi) as Hm. cbn [nalloc set_var] in Hm. fold b in Hm.
    pose proof (inv_adopt _ _ _ v b l Hm) as Hadopt.
    destruct H2 as (Ha & Hb & Hn & Hd).
    eapply inv_ext; [| | | | |apply Hadopt]; cbn; auto.
    + intros u. rewrite Ha. cbn. destruct (u =? v); auto.
    + intros k Hk. destruct (Nat.eqb_spec k b) as [->|Hne]; [now rewrite H3|].
      rewrite Hd by auto. cbn. destruct (Nat.eqb_spec k b); congruence.
    + intros u. unfold put. destruct (u =? v); auto.
    + apply put_eq.
    + rewrite Nat.eqb_refl. reflexivity.
Qed.

(** * Steps *)
Lemma fresh_ok s m lost v : inv s m lost -> m v = None -> fresh_var s v = Ok tt /\ inv (set_var s v None) (put m v None) lost.
Proof.
  intros Hi Hm. pose proof (i_agree _ _ _ Hi v) as A. unfold agrees in A. rewrite Hm in A.
  unfold fresh_var. destruct (vars s v) eqn:Ev; [tauto|]. split; auto.
  eapply inv_ext; [| | | | |exact Hi]; cbn; auto; intros u.
  - destruct (Nat.eqb_spec u v); congruence.
  - unfold put. destruct (Nat.eqb_spec u v); congruence.
Qed.

Lemma cell_of s m lost v l b :
  inv s m lost -> m v = Some (l, b) ->
  exists d, vars s v = Some (Arr (length l) d) /\ (sz * N.of_nat (length l) < 2 ^ w)%N
    /\ match d with None => l = [] /\ b = false | Some k => b = true /\ In k (live s) /\ heap s k = map Some l end.
Proof.
  intros Hi Hm. pose proof (i_agree _ _ _ Hi v) as A. unfold agrees in A. rewrite Hm in A.
  destruct (vars s v) as [[n d]|]; [|tauto]. cbn in A. destruct A as (-> & ? & ?). eauto.
Qed.

Lemma existsb_none n : existsb (fun x : option V => match x with Some _ => true | None => false end) (repeat None n) = false.
Proof. induction n; auto. Qed.

(** destruct(); deallocate(); on a variable: its block is freed and the variable drops out. *)
Lemma destroy_all s m lost v l b d :
  inv s m lost -> m v = Some (l, b) -> vars s v = Some (Arr (length l) d) ->
  exists s1 s2, destruct_ s (Arr (length l) d) = Ok s1 /\ am_free s1 d = Ok s2
    /\ vars s1 = vars s /\ vars s2 = vars s
    /\ (forall k, Some k <> d -> In k (live s) -> In k (live s2) /\ heap s2 k = heap s k)
    /\ inv (set_var s2 v None) (put m v None) lost.
Proof.
  intros Hi Hm Ev. destruct (cell_of _ _ _ _ _ _ Hi Hm) as (d' & Ev' & Hf & Hd).
  assert (d' = d) as -> by congruence. unfold destruct_. cbn [size_ data_].
  destruct d as [k|].
  - destruct Hd as (-> & Hk & Hh).
    destruct (destruct_loop_ok k l 0 s Hk Hh) as (s1 & H1 & (Ha & Hb & Hn & Hd) & H3).
    cbn [Nat.add] in H3.
    exists s1. rewrite H1. unfold am_free. rewrite H3, Hb, existsb_none.
    destruct (in_dec Nat.eq_dec k (live s)); [|tauto].
    eexists. split; [reflexivity|]. split; [reflexivity|]. cbn [vars live heap]. split; [auto|]. split; [auto|].
    split.
    + intros j Hj Hin. assert (j <> k) by congruence. split; [|auto].
      apply in_in_remove; auto.
    + pose proof (inv_drop _ _ _ v Hi) as Hdr.
      assert (lost_of s v = [k]) as E by (unfold lost_of, own; now rewrite Ev). rewrite E in Hdr. cbn [app] in Hdr.
      apply inv_lost_heap with (b := k) (c := repeat None (length l)) in Hdr; [|now left].
      apply inv_lost_free in Hdr.
      eapply inv_ext; [| | | | |exact Hdr]; cbn; auto.
      * intros u. now rewrite Ha.
      * intros j Hj. apply in_remove in Hj as [_ Hj]. destruct (Nat.eqb_spec j k); [congruence|].
        symmetry. auto.
  - destruct Hd as (-> & ->). cbn. exists s, s. do 4 (split; [reflexivity|]). split; [auto|].
    pose proof (inv_drop _ _ _ v Hi) as Hdr.
    assert (lost_of s v = []) as E by (unfold lost_of, own; now rewrite Ev). now rewrite E in Hdr.
Qed.

Lemma move_vars_ok s m lost v u x :
  inv s m lost -> v <> u -> vars s v = None -> m v = None -> m u = Some x ->
  exists a, get_arr s u = Ok a
    /\ inv (set_var (set_var s v (Some a)) u (Some (Arr 0 None))) (put (put m v (Some x)) u (Some ([], false))) lost.
Proof.
  intros Hi Hne Hv Hmv Hmu. destruct x as [l b].
  destruct (cell_of _ _ _ _ _ _ Hi Hmu) as (d & Ev & Hf & Hd).
  exists (Arr (length l) d). unfold get_arr. rewrite Ev. split; [auto|].
  pose proof (inv_drop _ _ _ u Hi) as Hdr.
  assert (Hmv' : put m u None v = None) by (rewrite put_ne; auto).
  assert (Hbu : (u =? v) = false) by (apply Nat.eqb_neq; auto).
  assert (Hbv : (v =? u) = false) by (apply Nat.eqb_neq; auto).
  destruct d as [k|].
  - destruct Hd as (-> & Hk & Hh).
    assert (lost_of s u = [k]) as E by (unfold lost_of, own; now rewrite Ev). rewrite E in Hdr. cbn [app] in Hdr.
    pose proof (inv_adopt _ _ _ v k l Hdr Hmv' Hh Hf) as Had.
    pose proof (inv_add_empty _ _ _ u Had) as Hae.
    eapply inv_ext; [| | | | |apply Hae]; cbn; auto.
    + intros z. destruct (Nat.eqb_spec z u), (Nat.eqb_spec z v); subst; auto; congruence.
    + intros z. unfold put. destruct (Nat.eqb_spec z u), (Nat.eqb_spec z v); subst; auto; congruence.
    + unfold put. now rewrite Hbu, Nat.eqb_refl.
  - destruct Hd as (-> & ->).
    assert (lost_of s u = []) as E by (unfold lost_of, own; now rewrite Ev). rewrite E in Hdr. cbn [app] in Hdr.
    pose proof (inv_add_empty _ _ _ v Hdr Hmv') as Had.
    pose proof (inv_add_empty _ _ _ u Had) as Hae.
    eapply inv_ext; [| | | | |apply Hae]; cbn; auto.
    + intros z. destruct (Nat.eqb_spec z u), (Nat.eqb_spec z v); subst; auto; congruence.
    + intros z. unfold put. destruct (Nat.eqb_spec z u), (Nat.eqb_spec z v); subst; auto; congruence.
    + unfold put. now rewrite Hbu, Nat.eqb_refl.
Qed.

Lemma eq_loop_ok s m lost v u : forall l r dl dr L R bl br,
  inv s m lost -> m v = Some (L, bl) -> m u = Some (R, br) ->
  L = dl ++ l -> R = dr ++ r -> length dl = length dr -> length l = length r ->
  eq_loop veq debug (length r) (length dl) s v u = Ok (all_eq veq l r).
Proof.
  induction l as [|x l IH]; intros [|y r] dl dr L R bl br Hi Hv Hu HL HR Hd Hl; cbn [length] in Hl; try discriminate.
  - reflexivity.
  - cbn [eq_loop length all_eq].
    rewrite (at_ok _ _ _ _ _ _ (length dl) x Hi Hv) by (rewrite HL; apply nth_app_mid). cbn [bind].
    rewrite Hd at 1. rewrite (at_ok _ _ _ _ _ _ (length dr) y Hi Hu) by (rewrite HR; apply nth_app_mid). cbn [bind].
    destruct (veq x y); cbn [andb]; [|reflexivity].
    replace (length dl + 1) with (length (dl ++ [x])) by (rewrite app_length; cbn; lia).
    eapply IH with (dr := dr ++ [y]); eauto.
    + rewrite HL, <- app_assoc. reflexivity.
    + rewrite HR, <- app_assoc. reflexivity.
    + rewrite !app_length. cbn. lia.
Qed.

Lemma all_eq_length (l r : list V) : length l <> length r -> all_eq veq l r = false.
Proof.
  revert r. induction l as [|x l IH]; intros [|y r] H; cbn in *; auto; try lia.
  rewrite IH by lia. apply andb_false_r.
Qed.

Lemma nth_repeat {A} n (x : A) i y : nth_error (repeat x n) i = Some y -> y = x.
Proof. intros H. apply nth_error_In in H. now apply repeat_spec in H. Qed.

Lemma nth_last (l : list V) : forall x, nth_error (x :: l) (length (x :: l) - 1) = Some (last l x).
Proof.
  induction l as [|y l IH]; intros x; [reflexivity|].
  specialize (IH y). cbn [length] in *. replace (S (S (length l)) - 1) with (S (length l)) by lia.
  replace (S (length l) - 1) with (length l) in IH by lia. cbn [nth_error] in *. rewrite IH. f_equal.
  cbn [last]. destruct l as [|z l]; [reflexivity|]. clear. revert z.
  induction l as [|z' l IH]; intros z; [reflexivity|]. exact (IH z').
Qed.

Theorem step_ok s m lost o m' r :
  inv s m lost -> no_self o -> fits w sz o -> meaning dflt veq m o = Some (m', r) ->
  exists s' l, step V dflt veq w sz debug fallible alloc_ok s o = Ok (s', r)
    /\ inv s' m' (l ++ lost) /\ length l = abandons m o.
Proof.
  intros Hi Hns Hfit Hm. destruct o; cbn [meaning abandons no_self fits] in *; cbn [step].
  - (* NewDefault *)
    destruct (m v) eqn:Hv; [discriminate|]. injection Hm as <- <-.
    destruct (fresh_ok _ _ _ _ Hi Hv) as [-> H]. cbn [bind].
    eexists _, []. split; [reflexivity|]. split; auto. cbn [app]. now apply inv_add_empty.
  - (* NewSize *)
    destruct (m v) eqn:Hv; [discriminate|]. injection Hm as <- <-.
    destruct (fresh_ok _ _ _ _ Hi Hv) as [-> H]. cbn [bind].
    destruct (build_ok s m lost v (repeat dflt n) (fun _ _ => Ok dflt)) as (s' & Hb & Hinv); auto.
    { now rewrite repeat_length. }
    { intros s1 i x _ _ Hx. apply nth_repeat in Hx. now subst. }
    rewrite repeat_length in Hb. rewrite Hb. eexists _, []. split; [reflexivity|]. auto.
  - (* CopyCtor *)
    destruct (m v) eqn:Hv; [discriminate|]. destruct (m u) as [[l b]|] eqn:Hu; [|discriminate].
    injection Hm as <- <-. assert (Hne : u <> v) by congruence.
    destruct (fresh_ok _ _ _ _ Hi Hv) as [-> H]. cbn [bind].
    destruct (cell_of _ _ _ _ _ _ Hi Hu) as (d & Ev & Hf & Hd).
    unfold get_arr. rewrite Ev. cbn [bind size_].
    destruct (build_ok s m lost v l (fun s i => at_ debug s u i)) as (s' & Hb & Hinv); auto.
    { intros s1 i x Hvs Hhp Hx. apply (at_frame s m lost u l b Hi Hu s1 i x); auto.
      intros k Hk. apply Hhp. exact (own_live _ _ _ _ _ Hi Hk). }
    rewrite Hb. eexists _, []. split; [reflexivity|]. auto.
  - (* MoveCtor *)
    destruct (m v) eqn:Hv; [discriminate|]. destruct (m u) as [x|] eqn:Hu; [|discriminate].
    injection Hm as <- <-. assert (Hne : v <> u) by congruence.
    destruct (fresh_ok _ _ _ _ Hi Hv) as [Hfr H]. rewrite Hfr. cbn [bind].
    assert (Ev : vars s v = None) by (unfold fresh_var in Hfr; destruct (vars s v); congruence).
    destruct (move_vars_ok s m lost v u x Hi Hne Ev Hv Hu) as (a & -> & Hinv). cbn [bind].
    eexists _, []. split; [reflexivity|]. auto.
  - (* FromVector *)
    destruct (m v) eqn:Hv; [discriminate|]. injection Hm as <- <-.
    destruct (fresh_ok _ _ _ _ Hi Hv) as [-> H]. cbn [bind].
    destruct (build_ok s m lost v l (fun _ i => slot_get l i)) as (s' & Hb & Hinv); auto.
    { intros s1 i x _ _ Hx. now apply slot_get_ok. }
    rewrite Hb. eexists _, []. split; [reflexivity|]. auto.
  - (* AssignCopy *)
    destruct (m v) as [[k bk]|] eqn:Hv; [|discriminate]. destruct (m u) as [[l bl]|] eqn:Hu; [|discriminate].
    injection Hm as <- <-.
    destruct (cell_of _ _ _ _ _ _ Hi Hv) as (d & Ev & Hf & Hd).
    destruct (cell_of _ _ _ _ _ _ Hi Hu) as (d' & Eu & Hf' & Hd').
    unfold get_arr at 1. rewrite Ev. cbn [bind].
    destruct (destroy_all s m lost v k bk d Hi Hv Ev) as (s1 & s2 & E1 & E2 & V1 & V2 & Hfr & Hinv).
    rewrite E1. cbn [bind]. unfold get_arr at 1. rewrite V1, Eu. cbn [bind size_ data_].
    assert (Hsep : forall j, own s u = Some j -> Some j <> d).
    { intros j Hj <-. apply Hns. apply (i_inj _ _ _ Hi v u j); auto. unfold own. now rewrite Ev. }
    destruct (Nat.eqb_spec (length k) (length l)) as [El|El].
    + rewrite El. destruct d as [j|].
      * destruct Hd as (-> & Hj & Hh).
        unfold destruct_ in E1. cbn [size_ data_] in E1. rewrite El in E1.
        destruct (destruct_loop_ok j k 0 s Hj Hh) as (s1' & H1 & (Ha & Hb & Hn & Hdd) & H3).
        rewrite El in H1. rewrite H1 in E1. injection E1 as ->. cbn [Nat.add] in H3.
        destruct (construct_loop_ok j (fun s i => at_ debug s u i) l l [] s1) as (s' & H4 & (Ha' & Hb' & Hn' & Hd2) & H6).
        { reflexivity. } { now rewrite Hb. } { cbn. rewrite H3. now f_equal. }
        { intros s3 i x (Ha3 & Hb3 & Hn3 & Hd3) Hx. apply (at_frame s m lost u l bl Hi Hu s3 i x); auto.
          - rewrite Ha3, Ha. reflexivity.
          - intros z Hz. split.
            + rewrite Hb3, Hb. eapply own_live; eauto.
            + assert (z <> j) by (intros ->; exact (Hsep _ Hz eq_refl)). rewrite Hd3, Hdd; auto. }
        cbn [length] in H4. rewrite H4. cbn [bind]. eexists _, []. split; [reflexivity|]. split; auto. cbn [app].
        pose proof (inv_drop _ _ _ v Hi) as Hdr.
        assert (lost_of s v = [j]) as E by (unfold lost_of, own; now rewrite Ev). rewrite E in Hdr. cbn [app] in Hdr.
        apply inv_lost_heap with (b := j) (c := map Some l) in Hdr; [|now left].
        pose proof (inv_adopt _ _ _ v j l Hdr) as Had.
        eapply inv_ext; [| | | | |apply Had]; cbn; auto; try congruence.
        -- intros z. rewrite Ha', Ha. destruct (Nat.eqb_spec z v) as [->|]; auto. now rewrite Ev, El.
        -- intros z Hz. destruct (Nat.eqb_spec z j) as [->|]; [now rewrite H6|]. rewrite Hd2, Hdd; auto.
        -- intros z. unfold put. destruct (z =? v); auto.
        -- apply put_eq.
        -- now rewrite Nat.eqb_refl.
      * destruct Hd as (-> & ->). cbn in El. destruct l; [|discriminate].
        cbn in E1. injection E1 as <-. cbn. eexists _, []. split; [reflexivity|]. split; auto. cbn [app].
        eapply inv_ext; [| | | | |exact Hi]; auto. intros z. unfold put. destruct (Nat.eqb_spec z v); congruence.
    + rewrite E2. cbn [bind].
      destruct (build_ok s2 m lost v l (fun s i => at_ debug s u i) Hinv Hf') as (s' & Hb & Hinv').
      { intros s3 i x Hvs Hhp Hx. apply (at_frame s m lost u l bl Hi Hu s3 i x); auto.
        - rewrite Hvs, V2; auto.
        - intros j Hj. destruct (Hfr j (Hsep _ Hj) (own_live _ _ _ _ _ Hi Hj)) as [Hl2 Hh2].
          destruct (Hhp j Hl2) as [? ->]. auto. }
      rewrite Hb. eexists _, []. split; [reflexivity|]. auto.
  - (* AssignMove *)
    destruct (m v) as [[k bk]|] eqn:Hv; [|discriminate]. destruct (m u) as [x|] eqn:Hu; [|discriminate].
    injection Hm as <- <-.
    destruct (cell_of _ _ _ _ _ _ Hi Hv) as (d & Ev & Hf & Hd).
    unfold get_arr at 1. rewrite Ev. cbn [bind].
    pose proof (inv_drop _ _ _ v Hi) as Hdr.
    destruct (move_vars_ok (set_var s v None) (put m v None) (lost_of s v ++ lost) v u x Hdr Hns) as (a & Ha & Hinv).
    { apply vars_set_eq. } { apply put_eq. } { rewrite put_ne; auto. }
    unfold get_arr in Ha. rewrite vars_set_ne in Ha by auto. fold (get_arr s u) in Ha. rewrite Ha. cbn [bind].
    eexists _, (lost_of s v). split; [reflexivity|]. split.
    + eapply inv_ext; [| | | | |exact Hinv]; cbn; auto; intros z; unfold put;
        destruct (z =? u), (z =? v); auto.
    + unfold lost_of, own. rewrite Ev. cbn. destruct d; [destruct Hd as [-> _]|destruct Hd as [_ ->]]; reflexivity.
  - (* GetAt *)
    destruct (m v) as [[l b]|] eqn:Hv; [|discriminate]. destruct (nth_error l i) as [x|] eqn:Hx; [|discriminate].
    injection Hm as <- <-. rewrite (at_ok _ _ _ _ _ _ _ _ Hi Hv Hx). eexists _, []. split; [reflexivity|]. auto.
  - (* SetAt *)
    destruct (m v) as [[l b]|] eqn:Hv; [|discriminate].
    destruct (Nat.ltb_spec i (length l)) as [Hlt|]; [|discriminate]. injection Hm as <- <-.
    destruct (cell_of _ _ _ _ _ _ Hi Hv) as (d & Ev & Hf & Hd).
    unfold get_arr. rewrite Ev. cbn [bind size_ data_].
    replace (assert_ debug (i <? length l)) with (@Ok unit tt).
    2:{ unfold assert_. destruct (Nat.ltb_spec i (length l)); [|lia]. cbn. now rewrite andb_false_r. }
    cbn [bind]. destruct d as [k|]; [|destruct Hd as [-> _]; cbn in Hlt; lia].
    destruct Hd as (-> & Hk & Hh). unfold write, read. rewrite slots_ok by auto. cbn [bind]. rewrite Hh.
    destruct (nth_error l i) as [y|] eqn:Ey.
    2:{ apply nth_error_None in Ey. lia. }
    rewrite (slot_get_ok _ _ (Some y)) by (now apply map_nth_error). cbn [bind].
    rewrite slot_set_ok by (rewrite map_length; lia). cbn [bind].
    eexists _, []. split; [reflexivity|]. split; auto. cbn [app].
    pose proof (inv_drop _ _ _ v Hi) as Hdr.
    assert (lost_of s v = [k]) as E by (unfold lost_of, own; now rewrite Ev). rewrite E in Hdr. cbn [app] in Hdr.
    apply inv_lost_heap with (b := k) (c := map Some (upd l i x)) in Hdr; [|now left].
    pose proof (inv_adopt _ _ _ v k (upd l i x) Hdr) as Had.
    eapply inv_ext; [| | | | |apply Had]; cbn; auto.
    + intros z. destruct (Nat.eqb_spec z v) as [->|]; auto. now rewrite Ev, upd_length.
    + intros z Hz. destruct (Nat.eqb_spec z k) as [->|]; auto.
      clear. revert i. induction l as [|h t IH]; intros [|i]; cbn; auto. now rewrite IH.
    + intros z. unfold put. destruct (z =? v); auto.
    + apply put_eq.
    + now rewrite Nat.eqb_refl.
    + now rewrite upd_length.
  - (* Back *)
    destruct (m v) as [[[|x l] b]|] eqn:Hv; try discriminate. injection Hm as <- <-.
    destruct (cell_of _ _ _ _ _ _ Hi Hv) as (d & Ev & Hf & Hd).
    unfold get_arr. rewrite Ev. cbn [bind size_ data_].
    replace (assert_ debug (0 <? length (x :: l))) with (@Ok unit tt).
    2:{ unfold assert_. cbn. now rewrite andb_false_r. }
    cbn [bind]. destruct d as [k|]; [|destruct Hd as [? _]; discriminate].
    destruct Hd as (-> & Hk & Hh). unfold read. rewrite slots_ok by auto. cbn [bind]. rewrite Hh.
    assert (Hn : nth_error (x :: l) (length (x :: l) - 1) = Some (last l x)).
    { apply nth_last. }
    rewrite (slot_get_ok _ _ (Some (last l x))) by (now apply map_nth_error). cbn [bind].
    eexists _, []. split; [reflexivity|]. auto.
  - (* Size *)
    destruct (m v) as [[l b]|] eqn:Hv; [|discriminate]. injection Hm as <- <-.
    destruct (cell_of _ _ _ _ _ _ Hi Hv) as (d & Ev & Hf & Hd).
    unfold get_arr. rewrite Ev. cbn [bind size_]. eexists _, []. split; [reflexivity|]. auto.
  - (* IsEq *)
    destruct (m v) as [[l b]|] eqn:Hv; [|discriminate]. destruct (m u) as [[r0 b']|] eqn:Hu; [|discriminate].
    injection Hm as <- <-.
    destruct (cell_of _ _ _ _ _ _ Hi Hv) as (d & Ev & Hf & Hd).
    destruct (cell_of _ _ _ _ _ _ Hi Hu) as (d' & Eu & Hf' & Hd').
    unfold get_arr. rewrite Ev, Eu. cbn [bind size_].
    destruct (Nat.eqb_spec (length r0) (length l)) as [El|El].
    + pose proof (eq_loop_ok s m lost v u l r0 [] [] l r0 b b' Hi Hv Hu eq_refl eq_refl eq_refl (eq_sym El)) as E.
      cbn [length] in E. rewrite E. cbn [bind].
      eexists _, []. split; [reflexivity|]. auto.
    + rewrite all_eq_length by auto. eexists _, []. split; [reflexivity|]. auto.
  - (* Destroy *)
    destruct (m v) as [[l b]|] eqn:Hv; [|discriminate]. injection Hm as <- <-.
    destruct (cell_of _ _ _ _ _ _ Hi Hv) as (d & Ev & Hf & Hd).
    unfold get_arr. rewrite Ev. cbn [bind data_].
    destruct (destroy_all s m lost v l b d Hi Hv Ev) as (s1 & s2 & -> & E2 & _ & _ & _ & Hinv). cbn [bind].
    rewrite E2. cbn [bind]. eexists _, []. split; [reflexivity|]. auto.
Qed.

Theorem run_ok p : forall s m lost m' rs,
  inv s m lost -> Forall no_self p -> Forall (fits w sz) p -> meanings dflt veq m p = Some (m', rs) ->
  exists s' l, run V dflt veq w sz debug fallible alloc_ok s p = Ok (s', rs)
    /\ inv s' m' (l ++ lost) /\ length l = abandoned dflt veq m p.
Proof.
  induction p as [|o p IH]; intros s m lost m' rs Hi Hf Hg Hm; cbn [meanings run abandoned] in *.
  - injection Hm as <- <-. exists s, []. auto.
  - inversion Hf; inversion Hg; subst. destruct (meaning dflt veq m o) as [[m1 r]|] eqn:E; [|discriminate].
    destruct (meanings dflt veq m1 p) as [[m2 rs']|] eqn:E2; [|discriminate]. injection Hm as <- <-.
    destruct (step_ok _ _ _ _ _ _ Hi H1 H5 E) as (s1 & l1 & -> & Hi1 & Hl1). cbn [bind].
    destruct (IH _ _ _ _ _ Hi1 H2 H6 E2) as (s2 & l2 & -> & Hi2 & Hl2). cbn [bind].
    exists s2, (l2 ++ l1). split; auto. split; [now rewrite <- app_assoc|]. rewrite app_length. lia.
Qed.

Lemma inv_init : inv empty_state no_vars [].
Proof.
  split; cbn; try tauto; try constructor; intros; unfold own in *; cbn in *; try discriminate.
Qed.

Lemma inv_final s m lost : inv s m lost -> (forall v, m v = None) -> length (live s) = length lost.
Proof.
  intros Hi Hm. apply Nat.le_antisymm.
  - apply NoDup_incl_length; [apply (i_nodup _ _ _ Hi)|]. intros i Hin.
    destruct (i_cover _ _ _ Hi i Hin) as [|[v Hv]]; auto.
    pose proof (i_agree _ _ _ Hi v) as A. unfold agrees in A. rewrite Hm in A.
    unfold own in Hv. destruct (vars s v); [tauto|discriminate].
  - apply NoDup_incl_length; [apply (i_lnodup _ _ _ Hi)|]. intros i Hin. eapply i_lost; eauto.
Qed.

Lemma run_app p q : forall s,
  run V dflt veq w sz debug fallible alloc_ok s (p ++ q)
  = do (s, r) <- run V dflt veq w sz debug fallible alloc_ok s p;
    do (s, r') <- run V dflt veq w sz debug fallible alloc_ok s q; Ok (s, r ++ r').
Proof.
  induction p as [|o p IH]; intros s; cbn [app run bind].
  - destruct (run V dflt veq w sz debug fallible alloc_ok s q) as [[]| |]; reflexivity.
  - destruct (step V dflt veq w sz debug fallible alloc_ok s o) as [[s1 r]| |]; cbn [bind]; [|reflexivity|reflexivity].
    rewrite IH. destruct (run V dflt veq w sz debug fallible alloc_ok s1 p) as [[s2 r2]| |]; cbn [bind]; [|reflexivity|reflexivity].
    destruct (run V dflt veq w sz debug fallible alloc_ok s2 q) as [[]| |]; reflexivity.
Qed.

Lemma at_beyond s m lost v l i :
  inv s m lost -> m v = Some (l, true) -> length l <= i ->
  at_ debug s v i = Fault (if debug then AssertFail else OutOfBounds).
Proof.
  intros Hi Hv Hl. destruct (cell_of _ _ _ _ _ _ Hi Hv) as (d & Ev & Hf & Hd).
  unfold at_, get_arr. rewrite Ev. cbn [bind size_ data_]. unfold assert_.
  destruct (Nat.ltb_spec i (length l)); [lia|]. destruct debug; cbn; [reflexivity|].
  destruct d as [k|]; [|destruct Hd; discriminate]. destruct Hd as (_ & Hk & Hh).
  unfold read. rewrite slots_ok by auto. cbn [bind]. rewrite Hh. unfold slot_get.
  replace (nth_error (map Some l) i) with (@None (option V)); [reflexivity|].
  symmetry. apply nth_error_None. rewrite map_length. lia.
Qed.

Lemma set_beyond s m lost v l i x :
  inv s m lost -> m v = Some (l, true) -> length l <= i ->
  step V dflt veq w sz debug fallible alloc_ok s (SetAt v i x) = Fault (if debug then AssertFail else OutOfBounds).
Proof.
  intros Hi Hv Hl. destruct (cell_of _ _ _ _ _ _ Hi Hv) as (d & Ev & Hf & Hd).
  cbn [step]. unfold get_arr. rewrite Ev. cbn [bind size_ data_]. unfold assert_.
  destruct (Nat.ltb_spec i (length l)); [lia|]. destruct debug; cbn; [reflexivity|].
  destruct d as [k|]; [|destruct Hd; discriminate]. destruct Hd as (_ & Hk & Hh).
  unfold write, read. rewrite slots_ok by auto. cbn [bind]. rewrite Hh. unfold slot_get.
  replace (nth_error (map Some l) i) with (@None (option V)); [reflexivity|].
  symmetry. apply nth_error_None. rewrite map_length. lia.
Qed.
Lemma back_empty s m lost v b : inv s m lost -> m v = Some ([], b) ->
  step V dflt veq w sz true fallible alloc_ok s (Back v) = Fault AssertFail.
Proof.
  intros Hi Hv. destruct (cell_of _ _ _ _ _ _ Hi Hv) as (d & Ev & Hf & Hd).
  cbn [step]. unfold get_arr. rewrite Ev. reflexivity.
Qed.

Lemma self_copy s m lost v x l b :
  inv s m lost -> m v = Some (x :: l, b) ->
  step V dflt veq w sz debug fallible alloc_ok s (AssignCopy v v) = Fault UseAfterFree.
Proof.
  intros Hi Hv. destruct (cell_of _ _ _ _ _ _ Hi Hv) as (d & Ev & Hf & Hd).
  destruct d as [k|]; [|destruct Hd; discriminate]. destruct Hd as (_ & Hk & Hh).
  destruct (destruct_loop_ok k (x :: l) 0 s Hk Hh) as (s1 & H1 & (Ha & Hb & Hn & Hdd) & H3).
  cbn [step]. unfold get_arr at 1. rewrite Ev. cbn [bind]. unfold destruct_. cbn [size_ data_].
  rewrite H1. cbn [bind]. unfold get_arr at 1. rewrite Ha, Ev. cbn [bind size_ data_]. rewrite Nat.eqb_refl.
  cbn [length construct_loop]. unfold at_, get_arr. rewrite Ha, Ev. cbn [bind size_ data_].
  unfold assert_. cbn [length]. rewrite andb_false_r. cbn [bind]. unfold read.
  rewrite slots_ok by (rewrite Hb; exact Hk). cbn [bind]. rewrite H3. reflexivity.
Qed.
End Proofs.

(** With an infallible policy a run either coincides with the run where every allocation succeeds, or aborts. *)
Section Abort.
Variable V : Type.
Variable dflt : V.
Variable veq : V -> V -> bool.
Variable w sz : N.
Variable debug : bool.
Variable alloc_ok : nat -> bool.

Lemma build_abort s v n val :
  build w sz false alloc_ok s v n val = build w sz false (fun _ => true) s v n val
  \/ @build V w sz false alloc_ok s v n val = Fault Abort.
Proof.
  unfold build, allocate, am_malloc. destruct (alloc_ok (nalloc s)); auto.
Qed.

Lemma step_abort s o :
  step V dflt veq w sz debug false alloc_ok s o = step V dflt veq w sz debug false (fun _ => true) s o
  \/ step V dflt veq w sz debug false alloc_ok s o = Fault Abort.
Proof.
  destruct o; cbn [step]; auto.
  - destruct (fresh_var s v); cbn [bind]; auto.
    destruct (build_abort s v n (fun _ _ => Ok dflt)) as [-> | ->]; auto.
  - destruct (fresh_var s v); cbn [bind]; auto. destruct (get_arr s u); cbn [bind]; auto.
    destruct (build_abort s v (size_ a0) (fun s i => at_ debug s u i)) as [-> | ->]; auto.
  - destruct (fresh_var s v); cbn [bind]; auto.
    destruct (build_abort s v (length l) (fun _ i => slot_get l i)) as [-> | ->]; auto.
  - destruct (get_arr s v) as [a| |]; cbn [bind]; auto. destruct (destruct_ s a) as [s1| |]; cbn [bind]; auto.
    destruct (get_arr s1 u) as [a1| |]; cbn [bind]; auto. destruct (size_ a =? size_ a1); auto.
    destruct (am_free s1 (data_ a)) as [s2| |]; cbn [bind]; auto.
    destruct (build_abort s2 v (size_ a1) (fun s i => at_ debug s u i)) as [-> | ->]; auto.
Qed.

Lemma run_abort p : forall s,
  run V dflt veq w sz debug false alloc_ok s p = run V dflt veq w sz debug false (fun _ => true) s p
  \/ run V dflt veq w sz debug false alloc_ok s p = Fault Abort.
Proof.
  induction p as [|o p IH]; intros s; cbn [run]; auto.
  destruct (step_abort s o) as [-> | ->]; auto.
  destruct (step V dflt veq w sz debug false (fun _ => true) s o) as [[s1 r]| |]; cbn [bind]; auto.
  destruct (IH s1) as [-> | ->]; auto.
Qed.
End Abort.

(** sizeof(T) * n beyond size_t. *)
Section Overflow.
Variable V : Type.
Variable dflt : V.

Lemma construct_short b : forall k i (s : state V),
  In b (live s) -> i <= length (heap s b) -> length (heap s b) < i + k ->
  (forall j, i <= j -> j < length (heap s b) -> nth_error (heap s b) j = Some None) ->
  construct_loop k i s (Some b) (fun _ _ => Ok dflt) = Fault OutOfBounds.
Proof.
  induction k as [|k IH]; intros i s Hb Hi Hl Hn; [lia|].
  cbn [construct_loop bind]. unfold place. unfold slots.
  destruct (in_dec Nat.eq_dec b (live s)) as [_|]; [|tauto]. cbn [bind].
  destruct (Nat.eq_dec i (length (heap s b))) as [->|Hne].
  - unfold slot_get. replace (nth_error (heap s b) (length (heap s b))) with (@None (option V)); [reflexivity|].
    symmetry. now apply nth_error_None.
  - rewrite (slot_get_ok _ _ None) by (apply Hn; lia). cbn [bind]. rewrite slot_set_ok by lia. cbn [bind].
    apply IH; cbn [live heap set_heap]; rewrite ?Nat.eqb_refl, ?upd_length; auto; try lia.
    intros j Hj Hj'. rewrite nth_error_upd_ne by lia. apply Hn; lia.
Qed.

Lemma new_overflow veq w sz debug fallible alloc_ok n :
  alloc_ok 0 = true -> (0 < sz)%N -> (2 ^ w <= sz * N.of_nat n)%N ->
  step V dflt veq w sz debug fallible alloc_ok empty_state (NewSize 0 n) = Fault OutOfBounds.
Proof.
  intros Ha Hs Ho. cbn [step fresh_var empty_state vars bind]. unfold build, allocate, am_malloc.
  cbn [nalloc empty_state]. rewrite Ha. cbn [bind]. unfold get_arr. rewrite vars_set_eq. cbn [bind size_ data_].
  rewrite construct_short; [reflexivity| | | |]; cbn [live heap set_var Nat.eqb].
  - now left.
  - lia.
  - rewrite repeat_length. cbn [Nat.add]. unfold umul.
    assert ((sz * N.of_nat n) mod 2 ^ w < sz * N.of_nat n)%N.
    { eapply N.lt_le_trans; [apply N.mod_lt, N.pow_nonzero; discriminate|exact Ho]. }
    apply N.div_lt_upper_bound in H; [|lia]. lia.
  - intros j _ Hj. rewrite repeat_length in Hj.
    rewrite (nth_error_nth' _ None) by (now rewrite repeat_length). f_equal.
    apply List.nth_repeat.
Qed.
End Overflow.
