(** Invariant of the thread-safe reference counting machine. *)
From Verif Require Import Base AtomicRefModel AtomicRefSpec.
Local Open Scope N_scope.

Lemma sum_upd {A} (f : A -> nat) l i x y : nth_error l i = Some y -> (sum (map f (upd l i x)) + f y = sum (map f l) + f x)%nat.
Proof. revert i. induction l as [|a l IH]; intros [|i] H; cbn in *; try discriminate; [injection H as ->; lia|]. specialize (IH _ H). unfold sum in *. lia. Qed.
Lemma sum_ge {A} (f : A -> nat) l i x : nth_error l i = Some x -> (f x <= sum (map f l))%nat.
Proof. revert i. induction l as [|a l IH]; intros [|i] H; cbn in *; try discriminate; [injection H as ->; lia|]. specialize (IH _ H). unfold sum in *. lia. Qed.
Lemma sum_two {A} (f : A -> nat) l i j x y : i <> j -> nth_error l i = Some x -> nth_error l j = Some y -> (f x + f y <= sum (map f l))%nat.
Proof.
  revert i j. induction l as [|a l IH]; intros [|i] [|j] Hij Hi Hj; cbn in *; try discriminate; try lia.
  - injection Hi as ->. pose proof (sum_ge f _ _ _ Hj). unfold sum in *. lia.
  - injection Hj as ->. pose proof (sum_ge f _ _ _ Hi). unfold sum in *. lia.
  - assert (i <> j) by lia. specialize (IH _ _ H Hi Hj). unfold sum in *. lia.
Qed.
Lemma sum_all0 {A} (f : A -> nat) l : (forall x, In x l -> f x = 0%nat) -> sum (map f l) = 0%nat.
Proof. induction l as [|a l IH]; intros H; cbn; [reflexivity|]. rewrite (H a) by (left; auto). apply IH. intros x Hx. apply H. right; auto. Qed.
Lemma sum_pos {A} (f : A -> nat) l : (0 < sum (map f l))%nat -> exists i x, nth_error l i = Some x /\ (0 < f x)%nat.
Proof.
  induction l as [|a l IH]; cbn; [lia|]. intros H. destruct (f a) eqn:E.
  - destruct IH as (i & x & Hi & Hx); [exact H|]. exists (S i), x. auto.
  - exists 0%nat, a. split; [reflexivity|lia].
Qed.

(** Pointer tags. *)
Lemma untagged_even a : N.even a = true -> untagged a = a.
Proof.
  intros H. unfold untagged. apply N.bits_inj. intros k. rewrite N.ldiff_spec. destruct (N.eq_dec k 0) as [->|Hk].
  - rewrite N.bit0_odd, <- N.negb_even, H. reflexivity.
  - replace (N.testbit 1 k) with false; [now rewrite andb_true_r|]. symmetry. apply (N.bits_above_log2 1 k). cbn. lia.
Qed.
Lemma untagged_tagged a : untagged (tagged a) = untagged a.
Proof.
  unfold untagged, tagged. apply N.bits_inj. intros k. rewrite !N.ldiff_spec, N.lor_spec. destruct (N.testbit a k), (N.testbit 1 k); reflexivity.
Qed.
Lemma tagged_odd a : N.odd (tagged a) = true.
Proof. rewrite <- N.bit0_odd. unfold tagged. rewrite N.lor_spec. now rewrite orb_true_r. Qed.
Lemma untagged_is_even a : N.even (untagged a) = true.
Proof. rewrite <- N.negb_odd, <- N.bit0_odd. unfold untagged. rewrite N.ldiff_spec. now rewrite andb_false_r. Qed.
Lemma odd_even a : N.odd a = negb (N.even a).
Proof. now rewrite <- N.negb_even. Qed.
Lemma tagged_tagged a : tagged (tagged a) = tagged a.
Proof. unfold tagged. rewrite <- N.lor_assoc, N.lor_diag. reflexivity. Qed.
Lemma aligned_even a : a mod 8 = 0 -> N.even a = true.
Proof. intros H. apply N.even_spec. exists (4 * (a / 8)). pose proof (N.div_mod a 8 ltac:(lia)). lia. Qed.

Section Inv.
Variable vt : variant.
Variable debug : bool.

Definition tref (a : N) (th : thread) : nat := (count_occ N.eq_dec (held th) a + pc_refs a (tpc th))%nat.
Definition addr_ok (x : option tobj) (hn on : nat) (a : N) : Prop :=
  match x with
  | Some ob => cnt ob = hn /\ dying ob = false /\ a <> 0 /\ a mod 8 = 0 /\ (on <= 1)%nat /\ (on = 1 -> cnt ob = 0)%nat /\ (vt = Plain -> cnt ob = 0 -> on = 1)%nat
  | None => hn = 0%nat /\ on = 0%nat
  end.
(** Threads with exclusive use of cell [c]. *)
Definition excl (c : nat) (p : pc) : nat :=
  match p with CritAdd d _ _ | UnA d _ _ | UnB d _ _ _ | UnStore d _ _ | CtAdd d _ => if Nat.eqb c d then 1 else 0 | _ => 0 end.
Definition cexcl (x : cell) : nat := match x with CNone => 0 | CBusy => 1 | CLive w => if N.odd w then 1 else 0 end.
Definition own_op (l : list N) (o : rop) : Prop := match o with OGet => True | OSet p => p = 0 \/ In p l end.
Definition live (cs : list cell) (c : nat) : Prop := exists w, nth_error cs c = Some (CLive w).
Definition locked (cs : list cell) (c : nat) (v : N) : Prop := nth_error cs c = Some (CLive (tagged v)) /\ N.even v = true.
Definition thread_ok (cs : list cell) (p : pc) (l : list N) : Prop :=
  match p with
  | Idle => True
  | NewP a | RelSub a _ => a <> 0
  | RelAssert a _ | RelDel a _ => a <> 0 /\ vt = Plain
  | Add a => In a l
  | LkLoad c o => live cs c /\ own_op l o
  | LkCas c o old => live cs c /\ own_op l o /\ N.even old = true
  | CritAdd c o v => locked cs c v /\ own_op l o /\ target o v <> 0
  | UnA c o v | UnStore c o v => locked cs c v /\ own_op l o
  | UnB c o v x => locked cs c v /\ own_op l o /\ x = tagged v
  | CtAdd c p => nth_error cs c = Some CBusy /\ In p l
  | DtA w => N.even w = true
  end.
Definition ser_ok (h : heap) (f : nat) (d : list nat) : Prop :=
  (forall a b oa ob, h a = Some oa -> h b = Some ob -> ser oa = ser ob -> a = b) /\
  (forall n, (n < f)%nat <-> In n d \/ exists a ob, h a = Some ob /\ ser ob = n) /\
  (forall a ob, h a = Some ob -> ~ In (ser ob) d) /\ NoDup d.
Definition lock_ok (cs : list cell) (ths : list thread) : Prop :=
  forall c x, nth_error cs c = Some x -> sum (map (fun th => excl c (tpc th)) ths) = cexcl x.

Record inv (s : state) : Prop := MkInv {
  i_addr : forall a, addr_ok (hp s a) (handles s a) (owners s a) a;
  i_thr : forall t th, nth_error (threads s) t = Some th -> thread_ok (cells s) (tpc th) (held th);
  i_lock : lock_ok (cells s) (threads s);
  i_ser : ser_ok (hp s) (fresh s) (deleted s) }.

Lemma refto_self a : a <> 0 -> refto a a = 1%nat.
Proof. intros H. unfold refto. rewrite N.eqb_refl. apply N.eqb_neq in H. now rewrite H. Qed.
Lemma refto_0 a : refto a 0 = 0%nat.
Proof. unfold refto. now rewrite andb_false_r. Qed.
Lemma refto_cases a b : (a = b /\ b <> 0 /\ refto a b = 1%nat) \/ ((a <> b \/ b = 0) /\ refto a b = 0%nat).
Proof. unfold refto. destruct (N.eqb_spec a b), (N.eqb_spec b 0); cbn; auto. Qed.

(** Whoever is referred to is alive. *)
Lemma refs_live s a : inv s -> (0 < handles s a)%nat -> exists ob, hp s a = Some ob /\ cnt ob = handles s a.
Proof.
  intros I H. pose proof (i_addr s I a) as X. unfold addr_ok in X. destruct (hp s a) as [ob|]; [|lia]. exists ob. tauto.
Qed.
Lemma handles_thr s t th a : nth_error (threads s) t = Some th -> (tref a th <= handles s a)%nat.
Proof. intros H. unfold handles. pose proof (sum_ge (tref a) _ _ _ H). unfold tref in *. lia. Qed.
Lemma held_live s t th a : inv s -> nth_error (threads s) t = Some th -> In a (held th) ->
  exists ob, hp s a = Some ob /\ cnt ob = handles s a /\ (0 < handles s a)%nat.
Proof.
  intros I H Ha. pose proof (handles_thr s t th a H) as L. unfold tref in L. apply (count_occ_In N.eq_dec) in Ha.
  destruct (refs_live s a I) as (ob & E & C); [lia|]. exists ob. split; [auto|]. split; [auto|lia].
Qed.
Lemma handles_cell s c x a : nth_error (cells s) c = Some x -> (cell_refs a x <= handles s a)%nat.
Proof. intros H. unfold handles. pose proof (sum_ge (cell_refs a) _ _ _ H). lia. Qed.
Lemma live_facts s a ob : inv s -> hp s a = Some ob -> a <> 0 /\ a mod 8 = 0 /\ dying ob = false /\ cnt ob = handles s a.
Proof. intros I E. pose proof (i_addr s I a) as X. rewrite E in X. cbn in X. tauto. Qed.

Lemma handles_upd s h cs f d t th th' a : nth_error (threads s) t = Some th -> 
  (handles (State h cs (upd (threads s) t th') f d) a + tref a th + sum (map (cell_refs a) (cells s)) =
   handles s a + tref a th' + sum (map (cell_refs a) cs))%nat.
Proof. intros H. unfold handles. cbn [threads cells]. pose proof (sum_upd (tref a) _ _ th' _ H). unfold tref in *. lia. Qed.
Lemma owners_upd s h cs f d t th th' a : nth_error (threads s) t = Some th -> 
  (owners (State h cs (upd (threads s) t th') f d) a + owner a (tpc th) = owners s a + owner a (tpc th'))%nat.
Proof. intros H. unfold owners. cbn [threads]. exact (sum_upd (fun th => owner a (tpc th)) _ _ th' _ H). Qed.
Lemma excl_upd s t th th' c : nth_error (threads s) t = Some th ->
  (sum (map (fun th => excl c (tpc th)) (upd (threads s) t th')) + excl c (tpc th) = sum (map (fun th => excl c (tpc th)) (threads s)) + excl c (tpc th'))%nat.
Proof. intros H. exact (sum_upd (fun th => excl c (tpc th)) _ _ th' _ H). Qed.

(** New state after thread [t] moved: what has to be shown. *)
Lemma frame s t th p' l' h' cs' f' d' : inv s -> nth_error (threads s) t = Some th ->
  (forall a, addr_ok (h' a) (handles (State h' cs' (upd (threads s) t (Thread p' l')) f' d') a)
                     (owners (State h' cs' (upd (threads s) t (Thread p' l')) f' d') a) a) ->
  thread_ok cs' p' l' ->
  (forall u thu, u <> t -> nth_error (threads s) u = Some thu -> thread_ok (cells s) (tpc thu) (held thu) -> thread_ok cs' (tpc thu) (held thu)) ->
  lock_ok cs' (upd (threads s) t (Thread p' l')) ->
  ser_ok h' f' d' ->
  inv (State h' cs' (upd (threads s) t (Thread p' l')) f' d').
Proof.
  intros I H Ha Ht Ho Hl Hs. split; cbn [threads cells hp fresh deleted]; auto.
  intros u thu Hu. destruct (Nat.eq_dec t u) as [<-|Hne].
  - rewrite nth_error_upd_eq in Hu by (apply nth_error_Some; congruence). injection Hu as <-. exact Ht.
  - rewrite nth_error_upd_ne in Hu by auto. apply Ho with (u := u); auto. now apply (i_thr s I u).
Qed.
(** Steps that leave the cells alone. *)
Lemma lock_same s t th p' l' : inv s -> nth_error (threads s) t = Some th -> (forall c, excl c p' = excl c (tpc th)) ->
  lock_ok (cells s) (upd (threads s) t (Thread p' l')).
Proof.
  intros I H He c x Hc. pose proof (excl_upd s t th (Thread p' l') c H) as X. cbn [tpc] in X. rewrite He in X.
  pose proof (i_lock s I c x Hc). lia.
Qed.
Lemma frame_cells s t th p' l' h' f' d' : inv s -> nth_error (threads s) t = Some th ->
  (forall a, addr_ok (h' a) (handles (State h' (cells s) (upd (threads s) t (Thread p' l')) f' d') a)
                     (owners (State h' (cells s) (upd (threads s) t (Thread p' l')) f' d') a) a) ->
  thread_ok (cells s) p' l' -> (forall c, excl c p' = excl c (tpc th)) -> ser_ok h' f' d' ->
  inv (State h' (cells s) (upd (threads s) t (Thread p' l')) f' d').
Proof. intros I H Ha Ht He Hs. eapply frame; eauto. eapply lock_same; eauto. Qed.

(** Steps that leave heap and cells alone, and move no reference. *)
Lemma frame_pc s t th p' l' : inv s -> nth_error (threads s) t = Some th ->
  (forall a, tref a (Thread p' l') = tref a th) -> (forall a, owner a p' = owner a (tpc th)) ->
  thread_ok (cells s) p' l' -> (forall c, excl c p' = excl c (tpc th)) ->
  inv (State (hp s) (cells s) (upd (threads s) t (Thread p' l')) (fresh s) (deleted s)).
Proof.
  intros I H Hr Ho Ht He. eapply frame_cells; eauto; [|apply I].
  intros a. pose proof (handles_upd s (hp s) (cells s) (fresh s) (deleted s) t th (Thread p' l') a H) as X. rewrite Hr in X.
  pose proof (owners_upd s (hp s) (cells s) (fresh s) (deleted s) t th (Thread p' l') a H) as Y. cbn [tpc] in Y. rewrite Ho in Y.
  replace (handles _ a) with (handles s a) by lia. replace (owners _ a) with (owners s a) by lia. apply I.
Qed.

Lemma ser_hset h f d a ob ob' : ser_ok h f d -> h a = Some ob -> ser ob' = ser ob -> ser_ok (hset h a (Some ob')) f d.
Proof.
  intros (A & B & C & D) E S.
  assert (G : forall b o, hset h a (Some ob') b = Some o -> exists o', h b = Some o' /\ ser o' = ser o).
  { intros b o. unfold hset. destruct (N.eqb_spec a b) as [<-|]; intros X; [injection X as <-; eauto|eauto]. }
  split; [|split; [|split; [|exact D]]].
  - intros x y ox oy Hx Hy Hs. destruct (G _ _ Hx) as (ox' & Ex & Sx). destruct (G _ _ Hy) as (oy' & Ey & Sy).
    apply (A x y ox' oy'); auto. congruence.
  - intros n. rewrite (B n). split; (intros [X|(b & o & Hb & Sb)]; [left; exact X|right]).
    + unfold hset. destruct (N.eqb_spec a b) as [<-|Hne].
      * exists a, ob'. rewrite N.eqb_refl. split; [reflexivity|congruence].
      * exists b, o. apply N.eqb_neq in Hne. rewrite Hne. auto.
    + destruct (G _ _ Hb) as (o' & Eb & Sb'). exists b, o'. split; [auto|congruence].
  - intros b o Hb. destruct (G _ _ Hb) as (o' & Eb & Sb). rewrite <- Sb. eauto.
Qed.
Lemma ser_new h f d a : ser_ok h f d -> h a = None -> ser_ok (hset h a (Some (Tobj f 0 false))) (S f) d.
Proof.
  intros (A & B & C & D) E.
  assert (Hf : forall b o, h b = Some o -> (ser o < f)%nat) by (intros b o Hb; apply B; right; eauto).
  split; [|split; [|split; [|exact D]]].
  - intros x y ox oy. unfold hset. destruct (N.eqb_spec a x) as [<-|], (N.eqb_spec a y) as [<-|]; intros Hx Hy Hs; auto.
    + injection Hx as <-. cbn in Hs. apply Hf in Hy. lia.
    + injection Hy as <-. cbn in Hs. apply Hf in Hx. lia.
    + eauto.
  - intros n. split.
    + intros Hn. destruct (Nat.eq_dec n f) as [->|Hne].
      * right. exists a, (Tobj f 0 false). unfold hset. now rewrite N.eqb_refl.
      * destruct (proj1 (B n)) as [X|(b & o & Hb & Sb)]; [lia|left; exact X|right]. exists b, o. unfold hset.
        destruct (N.eqb_spec a b) as [<-|]; [congruence|auto].
    + intros [X|(b & o & Hb & Sb)]; [assert (n < f)%nat by (apply B; auto); lia|]. unfold hset in Hb.
      destruct (N.eqb_spec a b); [injection Hb as <-; cbn in Sb; lia|]. apply Hf in Hb. lia.
  - intros b o. unfold hset. destruct (N.eqb_spec a b) as [<-|]; intros Hb X.
    + injection Hb as <-. cbn in X. assert (f < f)%nat by (apply B; auto). lia.
    + eapply C; eauto.
Qed.
Lemma ser_del h f d a ob : ser_ok h f d -> h a = Some ob -> ser_ok (hset h a None) f (ser ob :: d).
Proof.
  intros (A & B & C & D) E.
  assert (G : forall b o, hset h a None b = Some o -> h b = Some o /\ b <> a).
  { intros b o. unfold hset. destruct (N.eqb_spec a b) as [<-|]; intros X; [discriminate|auto]. }
  split; [|split; [|split]].
  - intros x y ox oy Hx Hy. apply G in Hx as [Hx _]. apply G in Hy as [Hy _]. eauto.
  - intros n. rewrite (B n). split.
    + intros [X|(b & o & Hb & Sb)]; [left; right; exact X|]. destruct (N.eq_dec a b) as [<-|Hne].
      * left. left. congruence.
      * right. exists b, o. unfold hset. apply N.eqb_neq in Hne. rewrite Hne. auto.
    + intros [[<-|X]|(b & o & Hb & Sb)]; [right; eauto|left; exact X|]. apply G in Hb as [Hb _]. right; eauto.
  - intros b o Hb [X|X]; apply G in Hb as [Hb Hne]; [apply Hne; eapply A; eauto|eapply C; eauto].
  - constructor; [eapply C; eauto|exact D].
Qed.

Lemma assert_true : assert_ debug true = Ok tt.
Proof. destruct debug; reflexivity. Qed.
Lemma addref_ok h a ob : h a = Some ob -> dying ob = false ->
  addref vt debug h a = Ok (hset h a (Some (Tobj (ser ob) (S (cnt ob)) (dying ob)))).
Proof. intros E D. unfold addref. rewrite E, D. cbn [negb]. destruct vt; [reflexivity|]. now rewrite assert_true. Qed.
Lemma setpc_ok s t th p l : nth_error (threads s) t = Some th ->
  setpc s t p l = Ok (State (hp s) (cells s) (upd (threads s) t (Thread p l)) (fresh s) (deleted s)).
Proof. intros H. unfold setpc. rewrite slot_set_ok; [reflexivity|]. apply nth_error_Some. congruence. Qed.
Lemma setcell_ok s c x y : nth_error (cells s) c = Some y ->
  setcell s c x = Ok (State (hp s) (upd (cells s) c x) (threads s) (fresh s) (deleted s)).
Proof. intros H. unfold setcell. rewrite slot_set_ok; [reflexivity|]. apply nth_error_Some. congruence. Qed.
Lemma load_ok s c w : nth_error (cells s) c = Some (CLive w) -> load s c = Ok w.
Proof. intros H. unfold load. now rewrite (slot_get_ok _ _ _ H). Qed.

Lemma count_remove1 a b l : In b l -> (count_occ N.eq_dec (remove1 b l) a + (if N.eq_dec a b then 1 else 0) = count_occ N.eq_dec l a)%nat.
Proof.
  induction l as [|c l IH]; cbn [In remove1 count_occ]; [contradiction|]. intros H. destruct (N.eqb_spec b c) as [<-|Hne].
  - destruct (N.eq_dec b a), (N.eq_dec a b); try congruence; lia.
  - destruct H as [->|H]; [congruence|]. specialize (IH H). cbn [count_occ]. destruct (N.eq_dec c a); lia.
Qed.
Lemma count_cons a b l : (count_occ N.eq_dec (b :: l) a = count_occ N.eq_dec l a + (if N.eq_dec a b then 1 else 0))%nat.
Proof. cbn. destruct (N.eq_dec b a), (N.eq_dec a b); try congruence; lia. Qed.
Lemma refto_eqdec a b : b <> 0 -> refto a b = (if N.eq_dec a b then 1 else 0)%nat.
Proof. intros H. destruct (N.eq_dec a b) as [->|Hne]; [now apply refto_self|]. destruct (refto_cases a b) as [(?&_)|[_ ?]]; [congruence|auto]. Qed.
Lemma hset_eq h a x : hset h a x a = x.
Proof. unfold hset. now rewrite N.eqb_refl. Qed.
Lemma hset_ne h a x b : b <> a -> hset h a x b = h b.
Proof. intros H. unfold hset. destruct (N.eqb_spec a b); [congruence|reflexivity]. Qed.
Lemma in_remove1 a b l : In a (remove1 b l) -> In a l.
Proof. induction l as [|c l IH]; cbn; [auto|]. destruct (b =? c); cbn; tauto. Qed.
End Inv.
