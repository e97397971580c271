(** Lifetimes of options and parsers: proofs. *)
From Coq Require Import Ascii String.
From Verif Require Import Base ArgModel ArgEntryModel ArgEntryProofs ArgLifeModel ArgLifeSpec.
Local Open Scope nat_scope.
Local Open Scope list_scope.

(** * The checked parser *)
Lemma lfind_alive dead f : forall os i, (forall j, i <= j < i + length os -> dead j = false) ->
  lfind dead f os i = Ok (option_map (fun k => i + k) (find_idx f os)).
Proof.
  induction os as [|o os IH]; intros i H; cbn [lfind find_idx]; [reflexivity|].
  unfold touch. rewrite H by (cbn [length]; lia). cbn [bind]. destruct (f o).
  - cbn. now rewrite Nat.add_0_r.
  - rewrite IH by (intros j Hj; apply H; cbn [length]; lia). destruct (find_idx f os) as [k|]; cbn; [|reflexivity].
    do 2 f_equal. lia.
Qed.
Lemma lfind0 dead f os : (forall j, j < length os -> dead j = false) -> lfind dead f os 0 = Ok (find_idx f os).
Proof.
  intros H. rewrite lfind_alive by (intros j Hj; apply H; lia). now destruct (find_idx f os).
Qed.

Section Alive.
Variable lb : Z.
Variable dead_o dead_p : nat -> bool.
Variable c : cfg.
Hypothesis Ho : forall j, j < length (options c) -> dead_o j = false.
Hypothesis Hp : forall j, j < length (positionals c) -> dead_p j = false.

Lemma lresolve_alive arg : lresolve dead_o c arg = resolve c arg.
Proof.
  unfold lresolve, resolve, lfind_long, lfind_short, lfind_inline_short, find_long, find_short, find_inline_short.
  destruct (match strchr arg c_eq with Some _ => _ | None => _ end) as [k|]; cbn [bind].
  - destruct (inline_values c).
    + destruct (ptr_add arg (k + 1)) as [q| |]; cbn [bind]; try reflexivity.
      destruct (N.eqb (chr arg 0) c_dash && N.eqb (chr arg 1) c_dash).
      * destruct (ptr_add arg 2) as [p| |]; cbn [bind]; try reflexivity. destruct (size_sub _ 2) as [n| |]; cbn [bind]; try reflexivity.
        rewrite lfind0 by exact Ho. cbn [bind]. destruct (find_idx _ _); [reflexivity|].
        destruct (strncmp_eq 5 arg (lit "--no-")); [|reflexivity].
        destruct (ptr_add arg 5) as [p'| |]; cbn [bind]; try reflexivity. destruct (size_sub _ 5) as [n'| |]; cbn [bind]; try reflexivity.
        rewrite lfind0 by exact Ho. reflexivity.
      * destruct (ptr_add arg 1) as [p| |]; cbn [bind]; try reflexivity. destruct (size_sub _ 1) as [n| |]; cbn [bind]; try reflexivity.
        rewrite lfind0 by exact Ho. cbn [bind]. destruct (find_idx _ _); [reflexivity|].
        rewrite lfind0 by exact Ho. cbn [bind]. destruct (find_idx _ _); [reflexivity|]. cbn [bind].
        destruct (strncmp_eq 5 arg (lit "--no-")); [|reflexivity].
        destruct (ptr_add arg 5) as [p'| |]; cbn [bind]; try reflexivity. destruct (size_sub _ 5) as [n'| |]; cbn [bind]; try reflexivity.
        rewrite lfind0 by exact Ho. reflexivity.
    + cbn [bind]. destruct (N.eqb (chr arg 0) c_dash && N.eqb (chr arg 1) c_dash).
      * destruct (ptr_add arg 2) as [p| |]; cbn [bind]; try reflexivity. destruct (size_sub _ 2) as [n| |]; cbn [bind]; try reflexivity.
        rewrite lfind0 by exact Ho. cbn [bind]. destruct (find_idx _ _); [reflexivity|].
        destruct (strncmp_eq 5 arg (lit "--no-")); [|reflexivity].
        destruct (ptr_add arg 5) as [p'| |]; cbn [bind]; try reflexivity. destruct (size_sub _ 5) as [n'| |]; cbn [bind]; try reflexivity.
        rewrite lfind0 by exact Ho. reflexivity.
      * destruct (ptr_add arg 1) as [p| |]; cbn [bind]; try reflexivity. destruct (size_sub _ 1) as [n| |]; cbn [bind]; try reflexivity.
        rewrite lfind0 by exact Ho. cbn [bind]. destruct (find_idx _ _); [reflexivity|]. cbn [bind].
        destruct (strncmp_eq 5 arg (lit "--no-")); [|reflexivity].
        destruct (ptr_add arg 5) as [p'| |]; cbn [bind]; try reflexivity. destruct (size_sub _ 5) as [n'| |]; cbn [bind]; try reflexivity.
        rewrite lfind0 by exact Ho. reflexivity.
  - destruct (N.eqb (chr arg 0) c_dash && N.eqb (chr arg 1) c_dash).
    + destruct (ptr_add arg 2) as [p| |]; cbn [bind]; try reflexivity. destruct (size_sub _ 2) as [n| |]; cbn [bind]; try reflexivity.
      rewrite lfind0 by exact Ho. cbn [bind]. destruct (find_idx _ _); [reflexivity|].
      destruct (strncmp_eq 5 arg (lit "--no-")); [|reflexivity].
      destruct (ptr_add arg 5) as [p'| |]; cbn [bind]; try reflexivity. destruct (size_sub _ 5) as [n'| |]; cbn [bind]; try reflexivity.
      rewrite lfind0 by exact Ho. reflexivity.
    + destruct (ptr_add arg 1) as [p| |]; cbn [bind]; try reflexivity. destruct (size_sub _ 1) as [n| |]; cbn [bind]; try reflexivity.
      rewrite lfind0 by exact Ho. cbn [bind]. destruct (find_idx _ _); [reflexivity|].
      destruct (inline_values c).
      * rewrite lfind0 by exact Ho. cbn [bind]. destruct (find_idx _ _); [reflexivity|]. cbn [bind].
        destruct (strncmp_eq 5 arg (lit "--no-")); [|reflexivity].
        destruct (ptr_add arg 5) as [p'| |]; cbn [bind]; try reflexivity. destruct (size_sub _ 5) as [n'| |]; cbn [bind]; try reflexivity.
        rewrite lfind0 by exact Ho. reflexivity.
      * cbn [bind]. destruct (strncmp_eq 5 arg (lit "--no-")); [|reflexivity].
        destruct (ptr_add arg 5) as [p'| |]; cbn [bind]; try reflexivity. destruct (size_sub _ 5) as [n'| |]; cbn [bind]; try reflexivity.
        rewrite lfind0 by exact Ho. reflexivity.
Qed.
Lemma lread_head_alive st pos arg : lread_head dead_o dead_p c st pos arg = read_head c st pos arg.
Proof.
  unfold lread_head, read_head. rewrite lresolve_alive.
  destruct (allow_pass c && streq arg (lit "--")); [reflexivity|]. destruct (has_pass st); [reflexivity|].
  destruct (is_option c arg); [reflexivity|]. destruct (Nat.leb_spec (length (positionals c)) pos); [reflexivity|].
  unfold touch. now rewrite Hp.
Qed.
Lemma lloop_alive : forall n args pos st, length args <= n ->
  lloop lb dead_o dead_p c args pos st = loop lb c args pos st.
Proof.
  induction n as [|n IH]; intros [|arg rest] pos st L; cbn [length] in L; try lia; try reflexivity.
  cbn [lloop loop]. rewrite lread_head_alive.
  destruct (read_head c st pos arg) as [h| |]; cbn [bind]; try reflexivity.
  destruct h as [e|st'|i vp|i v].
  - reflexivity.
  - apply IH. lia.
  - destruct (nth_error (options c) i) as [o|]; [|reflexivity]. cbn zeta.
    destruct vp as [v|]; [|destruct rest as [|nx rest']].
    + destruct (consume lb o (Some v)) as [[x|]| |]; cbn [bind]; try reflexivity; rewrite !IH by lia; reflexivity.
    + reflexivity.
    + cbn [length] in L. destruct (must_omit (o_kind o)).
      * destruct (consume lb o None) as [[x|]| |]; cbn [bind]; try reflexivity; rewrite !IH by (cbn [length]; lia); reflexivity.
      * destruct (consume lb o (Some nx)) as [[x|]| |]; cbn [bind]; try reflexivity; rewrite !IH by (cbn [length]; lia); reflexivity.
  - destruct (nth_error (positionals c) i) as [p|]; [|reflexivity].
    destruct (policy_consume lb p (Some v)) as [[x|]| |]; cbn [bind]; try reflexivity. apply IH. lia.
Qed.
Lemma lparse_alive st args : lparse lb dead_o dead_p c st args = parse lb c st args.
Proof.
  unfold lparse, parse. rewrite (lloop_alive (length args)) by lia.
  destruct (loop lb c args 0 st) as [[st'|pos h st']| |]; cbn [bind]; try reflexivity.
  destruct (negb h); cbn [andb]; [|reflexivity]. destruct (Nat.ltb_spec pos (length (positionals c))); [|reflexivity].
  unfold touch. now rewrite Hp.
Qed.
End Alive.

(** * Which options a parser points to *)
Definition bound (n : nat) (o : owner) : Prop := match o with Shared b => b <= n | Of j | HelpOf j => j < n end.
Record winv (os ps : list owner) (n : nat) (w : world) : Prop := {
  wi_n : length (w_parsers w) = n;
  wi_o : length (w_opts w) = length os;
  wi_p : length (w_poss w) = length ps;
  wi_s : forall i, In i (w_sopts w) <-> is_shared os i;
  wi_sp : forall i, In i (w_sposs w) <-> is_shared ps i;
  wi_k : forall k p, nth_error (w_parsers w) k = Some p -> forall i, In i (p_opts p) <-> known_by os k i;
  wi_kp : forall k p, nth_error (w_parsers w) k = Some p -> forall i, In i (p_poss p) <-> known_by ps k i;
  wi_h : forall k p, nth_error (w_parsers w) k = Some p -> p_help p = true ->
    exists i, nth_error (p_opts p) 0 = Some i /\ nth_error os i = Some (HelpOf k);
  wi_h2 : forall i k, nth_error os i = Some (HelpOf k) ->
    exists p, nth_error (w_parsers w) k = Some p /\ p_help p = true /\ nth_error (p_opts p) 0 = Some i;
  wi_b : forall i o, nth_error os i = Some o -> bound n o;
  wi_bp : forall i o, nth_error ps i = Some o -> bound n o
}.
Definition shape (w : world) := (length (w_opts w), length (w_poss w), w_sopts w, w_sposs w, map (fun p => (p_opts p, p_poss p, p_help p)) (w_parsers w)).
Lemma winv_shape os ps n w w' : shape w = shape w' -> winv os ps n w -> winv os ps n w'.
Proof.
  unfold shape. intros E. injection E as E1 E2 E3 E4 E5. intros [H1 H2 H3 H4 H5 H6 H7 H8 H9 H10 H11].
  assert (G : forall k p', nth_error (w_parsers w') k = Some p' -> exists p, nth_error (w_parsers w) k = Some p /\
    p_opts p = p_opts p' /\ p_poss p = p_poss p' /\ p_help p = p_help p').
  { intros k p' Hk. assert (Q : nth_error (map (fun p => (p_opts p, p_poss p, p_help p)) (w_parsers w')) k = Some (p_opts p', p_poss p', p_help p')) by now apply (nth_map (fun p => (p_opts p, p_poss p, p_help p))).
    rewrite <- E5, nth_error_map in Q. destruct (nth_error (w_parsers w) k) as [p|]; [|discriminate]. cbn in Q. injection Q as Q1 Q2 Q3. exists p. auto. }
  assert (G' : forall k p, nth_error (w_parsers w) k = Some p -> exists p', nth_error (w_parsers w') k = Some p' /\
    p_opts p = p_opts p' /\ p_poss p = p_poss p' /\ p_help p = p_help p').
  { intros k p Hk. assert (Q : nth_error (map (fun p => (p_opts p, p_poss p, p_help p)) (w_parsers w)) k = Some (p_opts p, p_poss p, p_help p)) by now apply (nth_map (fun p => (p_opts p, p_poss p, p_help p))).
    rewrite E5, nth_error_map in Q. destruct (nth_error (w_parsers w') k) as [p'|]; [|discriminate]. cbn in Q. injection Q as Q1 Q2 Q3. exists p'. auto. }
  split; auto.
  - rewrite <- H1, <- (map_length (fun p => (p_opts p, p_poss p, p_help p)) (w_parsers w')), <- E5. now rewrite map_length.
  - congruence.
  - congruence.
  - now rewrite <- E3.
  - now rewrite <- E4.
  - intros k p' Hk. destruct (G _ _ Hk) as (p & Hk' & <- & _). eapply H6; eauto.
  - intros k p' Hk. destruct (G _ _ Hk) as (p & Hk' & _ & <- & _). eapply H7; eauto.
  - intros k p' Hk. destruct (G _ _ Hk) as (p & Hk' & <- & _ & <-). eapply H8; eauto.
  - intros i k Hi. destruct (H9 _ _ Hi) as (p & Hk & Hh & Hz). destruct (G' _ _ Hk) as (p' & Hk' & Q1 & _ & Q3).
    exists p'. rewrite <- Q1, <- Q3. auto.
Qed.
Lemma shape_leave w k p st : nth_error (w_parsers w) k = Some p -> shape w = shape (leave w k p st).
Proof.
  intros H. unfold shape, leave. cbn. rewrite !write_len. f_equal. symmetry. now apply (map_upd_keep _ _ _ p).
Qed.
Lemma shape_mode w k p m : nth_error (w_parsers w) k = Some p -> shape w = shape (with_parser w k (set_mode p m)).
Proof.
  intros H. unfold shape, with_parser. cbn. f_equal. symmetry. now apply (map_upd_keep _ _ _ p).
Qed.

(** Lists of owners that grow by one. *)
Lemma known_snoc os k i o : known_by (os ++ [o]) k i <-> known_by os k i \/ (i = length os /\ knows k o).
Proof.
  unfold known_by. split.
  - intros (x & H & K). apply nth_snoc in H as [H|[-> ->]]; eauto.
  - intros [(x & H & K)|[-> K]].
    + exists x. split; [|exact K]. rewrite nth_error_app1; [exact H|]. apply nth_error_Some. congruence.
    + exists o. split; [|exact K]. rewrite nth_error_app2, Nat.sub_diag by lia. reflexivity.
Qed.
Lemma shared_snoc os i o : is_shared (os ++ [o]) i <-> is_shared os i \/ (i = length os /\ exists b, o = Shared b).
Proof.
  unfold is_shared. split.
  - intros (b & H). apply nth_snoc in H as [H|[-> <-]]; eauto.
  - intros [(b & H)|[-> (b & ->)]]; exists b.
    + rewrite nth_error_app1; [exact H|]. apply nth_error_Some. congruence.
    + rewrite nth_error_app2, Nat.sub_diag by lia. reflexivity.
Qed.
Lemma bound_snoc os n n' o : (forall i x, nth_error os i = Some x -> bound n x) -> n <= n' -> bound n' o ->
  forall i x, nth_error (os ++ [o]) i = Some x -> bound n' x.
Proof.
  intros H L B i x Hx. apply nth_snoc in Hx as [Hx|[_ ->]]; [|exact B]. apply H in Hx. destruct x; cbn in *; lia.
Qed.
Lemma bound_more os n n' : (forall i x, nth_error os i = Some x -> bound n x) -> n <= n' ->
  forall i x, nth_error os i = Some x -> bound n' x.
Proof. intros H L i x Hx. apply H in Hx. destruct x; cbn in *; lia. Qed.
Lemma in_snoc {A} (l : list A) x y : In y (l ++ [x]) <-> In y l \/ y = x.
Proof. rewrite in_app_iff. cbn. intuition. Qed.
Lemma known_new os n i : (forall i x, nth_error os i = Some x -> bound n x) -> known_by os n i <-> is_shared os i.
Proof.
  intros H. unfold known_by, is_shared. split.
  - intros (x & Hx & K). pose proof (H _ _ Hx) as B. destruct x; cbn in *; [eauto|lia|lia].
  - intros (b & Hb). exists (Shared b). split; [exact Hb|]. exact (H _ _ Hb).
Qed.

Lemma winv_step lb os ps n w e w' r : winv os ps n w -> step lb w e = Ok (w', r) ->
  winv (os ++ owners n [LEv e]) (ps ++ powners n [LEv e]) (n + made_so_far [LEv e]) w'.
Proof.
  intros H0 H. pose proof H0 as [H1 H2 H3 H4 H5 H6 H7 H8 H9 H10 H11].
  assert (Hlt : forall k p, nth_error (w_parsers w) k = Some p -> k < n).
  { intros k p Hk. rewrite <- H1. apply nth_error_Some. congruence. }
  assert (Upd_eq : forall k (q x : parser), nth_error (w_parsers w) k = Some q -> nth_error (upd (w_parsers w) k x) k = Some x).
  { intros k q x Hk. rewrite nth_upd, Nat.eqb_refl. cbn [andb]. destruct (Nat.ltb_spec k (length (w_parsers w))) as [L|L]; [reflexivity|].
    apply nth_error_None in L. congruence. }
  assert (Upd_ne : forall k k' (x : parser), k <> k' -> nth_error (upd (w_parsers w) k x) k' = nth_error (w_parsers w) k').
  { intros k k' x Ne. rewrite nth_upd. apply Nat.eqb_neq in Ne. now rewrite Ne. }
  assert (Upd : forall k (q : parser), nth_error (w_parsers w) k = Some q -> forall x k' p, nth_error (upd (w_parsers w) k x) k' = Some p ->
    k = k' /\ p = x \/ k <> k' /\ nth_error (w_parsers w) k' = Some p).
  { intros k q Hk x k' p Hp. destruct (Nat.eq_dec k k') as [<-|Ne].
    - rewrite (Upd_eq _ _ _ Hk) in Hp. injection Hp as <-. auto.
    - rewrite Upd_ne in Hp by exact Ne. auto. }
  destruct e as [o|t|hlp|k o|k t|k m|k args|k]; cbn [owners powners made_so_far app]; rewrite ?app_nil_r, ?Nat.add_0_r.
  - injection H as <- _. split; cbn; auto.
    + rewrite !app_length. cbn. lia.
    + intros i. rewrite in_snoc, shared_snoc, H4, H2. intuition eauto.
    + intros k p Hk i. rewrite known_snoc, (H6 k p Hk). cbn [knows]. apply Hlt in Hk. intuition lia.
    + intros k p Hk Hh. destruct (H8 k p Hk Hh) as (i & Q1 & Q2). exists i. split; [exact Q1|].
      rewrite nth_error_app1; [exact Q2|]. apply nth_error_Some. congruence.
    + intros i k Hi. apply nth_snoc in Hi as [Hi|[_ Hi]]; [eauto|discriminate].
    + eapply bound_snoc; eauto. cbn. lia.
  - injection H as <- _. split; cbn; auto.
    + rewrite !app_length. cbn. lia.
    + intros i. rewrite in_snoc, shared_snoc, H5, H3. intuition eauto.
    + intros k p Hk i. rewrite known_snoc, (H7 k p Hk). cbn [knows]. apply Hlt in Hk. intuition lia.
    + eapply bound_snoc; eauto. cbn. lia.
  - rewrite step_parser in H. injection H as <- _.
    assert (Kp : forall i, In i (w_sposs w) <-> known_by ps n i) by (intros i; rewrite H5, known_new; auto; tauto).
    assert (Ks : forall i, In i (w_sopts w) <-> known_by os n i) by (intros i; rewrite H4, known_new; auto; tauto).
    split; cbn [w_opts w_poss w_sopts w_sposs w_parsers]; auto.
    + rewrite app_length. cbn. lia.
    + destruct hlp; cbn; rewrite ?app_length, ?app_nil_r; cbn; lia.
    + destruct hlp; [|rewrite app_nil_r; auto]. intros i. rewrite shared_snoc, H4. split; [auto|]. intros [X|[_ (b & X)]]; [auto|discriminate].
    + intros k p Hk. apply nth_snoc in Hk as [Hk|[-> ->]].
      * intros i. destruct hlp; [|rewrite app_nil_r; now apply H6]. rewrite known_snoc, (H6 k p Hk). cbn [knows]. apply Hlt in Hk.
        intuition lia.
      * rewrite H1. intros i. destruct hlp; cbn [made p_opts app]; [|rewrite app_nil_r; apply Ks].
        rewrite known_snoc. cbn [In knows]. rewrite Ks, <- H2. intuition.
    + intros k p Hk. apply nth_snoc in Hk as [Hk|[-> ->]]; [now apply H7|]. rewrite H1. exact Kp.
    + intros k p Hk Hh. apply nth_snoc in Hk as [Hk|[-> ->]].
      * destruct (H8 k p Hk Hh) as (i & Q1 & Q2). exists i. split; [exact Q1|].
        rewrite nth_error_app1; [exact Q2|]. apply nth_error_Some. congruence.
      * cbn in Hh. subst hlp. exists (length (w_opts w)). split; [reflexivity|]. rewrite H2, nth_error_app2, Nat.sub_diag, H1 by lia. reflexivity.
    + intros i k Hi. assert (Q : nth_error os i = Some (HelpOf k) \/ hlp = true /\ i = length os /\ k = n).
      { destruct hlp; [|rewrite app_nil_r in Hi; auto]. apply nth_snoc in Hi as [Hi|[-> Hi]]; [auto|]. injection Hi as <-. auto. }
      destruct Q as [Q|(-> & -> & ->)].
      * destruct (H9 _ _ Q) as (p & Hk & Hh & Hz). exists p. split; [|auto]. rewrite nth_error_app1; [exact Hk|]. apply nth_error_Some. congruence.
      * exists (made w true). rewrite nth_error_app2, H1, Nat.sub_diag by lia. split; [reflexivity|]. split; [reflexivity|]. cbn. now rewrite H2.
    + destruct hlp; [|rewrite app_nil_r; eapply bound_more; eauto; lia]. eapply bound_snoc; eauto; cbn; lia.
    + eapply bound_more; eauto; lia.
  - cbn [step] in H. slot H. injection H as <- _. pose proof (Hlt _ _ E) as Lk. specialize (Upd k a E). pose proof (fun x => Upd_eq _ _ x E) as Ueq.
    split; cbn; auto.
    + now rewrite upd_length.
    + rewrite !app_length. cbn. lia.
    + intros i. rewrite shared_snoc, H4. split; [auto|]. intros [X|[_ (b & X)]]; [auto|discriminate].
    + intros k' p Hk i. apply Upd in Hk as [(<- & ->)|(Ne & Hk)]; rewrite known_snoc; cbn [knows].
      * cbn. rewrite in_snoc, (H6 _ _ E), H2. intuition.
      * rewrite (H6 _ _ Hk). intuition congruence.
    + intros k' p Hk. apply Upd in Hk as [(<- & ->)|(Ne & Hk)]; [exact (H7 _ _ E)|exact (H7 _ _ Hk)].
    + intros k' p Hk Hh. assert (Q : exists q, nth_error (w_parsers w) k' = Some q /\ p_help q = true /\
        (forall i, nth_error (p_opts q) 0 = Some i -> nth_error (p_opts p) 0 = Some i)).
      { apply Upd in Hk as [(<- & ->)|(Ne & Hk)]; [|eauto]. exists a. split; [exact E|]. split; [exact Hh|].
        intros i Hi. change (nth_error (p_opts a ++ [length (w_opts w)]) 0 = Some i). rewrite nth_error_app1; [exact Hi|]. apply nth_error_Some. congruence. }
      destruct Q as (q & Hq & Hh' & Hz). destruct (H8 _ _ Hq Hh') as (i & Q1 & Q2). exists i. split; [auto|].
      rewrite nth_error_app1; [exact Q2|]. apply nth_error_Some. congruence.
    + intros i k' Hi. apply nth_snoc in Hi as [Hi|[_ Hi]]; [|discriminate]. destruct (H9 _ _ Hi) as (q & Hq & Hh & Hz).
      destruct (Nat.eq_dec k k') as [<-|Ne].
      * assert (q = a) by congruence. subst q. exists (add_opt a (length (w_opts w))). split; [apply Ueq|]. split; [exact Hh|].
        change (nth_error (p_opts a ++ [length (w_opts w)]) 0 = Some i). rewrite nth_error_app1; [exact Hz|]. apply nth_error_Some. congruence.
      * exists q. split; [|auto]. now rewrite Upd_ne.
    + eapply bound_snoc; eauto.
  - cbn [step] in H. slot H. injection H as <- _. pose proof (Hlt _ _ E) as Lk. specialize (Upd k a E). pose proof (fun x => Upd_eq _ _ x E) as Ueq.
    split; cbn; auto.
    + now rewrite upd_length.
    + rewrite !app_length. cbn. lia.
    + intros i. rewrite shared_snoc, H5. split; [auto|]. intros [X|[_ (b & X)]]; [auto|discriminate].
    + intros k' p Hk. apply Upd in Hk as [(<- & ->)|(Ne & Hk)]; [exact (H6 _ _ E)|exact (H6 _ _ Hk)].
    + intros k' p Hk i. apply Upd in Hk as [(<- & ->)|(Ne & Hk)]; rewrite known_snoc; cbn [knows].
      * cbn. rewrite in_snoc, (H7 _ _ E), H3. intuition.
      * rewrite (H7 _ _ Hk). intuition congruence.
    + intros k' p Hk Hh. apply Upd in Hk as [(<- & ->)|(Ne & Hk)]; [exact (H8 _ _ E Hh)|exact (H8 _ _ Hk Hh)].
    + intros i k' Hi. destruct (H9 _ _ Hi) as (q & Hq & Hh & Hz). destruct (Nat.eq_dec k k') as [<-|Ne].
      * assert (q = a) by congruence. subst q. exists (add_pos a (length (w_poss w))). split; [apply Ueq|]. auto.
      * exists q. split; [|auto]. now rewrite Upd_ne.
    + eapply bound_snoc; eauto.
  - cbn [step] in H. slot H. injection H as <- _. eapply winv_shape; [|exact H0]. now apply shape_mode.
  - cbn [step] in H. slot H. destruct parse as [[b st]| |]; cbn [bind] in H; try discriminate. injection H as <- _.
    eapply winv_shape; [|exact H0]. now apply shape_leave.
  - cbn [step] in H. slot H. injection H as <- _. eapply winv_shape; [|exact H0]. now apply shape_leave.
Qed.

(** * Histories *)
Lemma owners_app a : forall n b, owners n (a ++ b) = owners n a ++ owners (n + made_so_far a) b.
Proof.
  induction a as [|e a IH]; intros n b; cbn [app owners made_so_far]; [now rewrite Nat.add_0_r|].
  destruct e as [[o|t|hlp|k o|k t|k m|k args|k]|i|i|k|i|i|k args]; cbn [app]; rewrite ?IH; try reflexivity.
  rewrite <- app_assoc. do 3 f_equal. lia.
Qed.
Lemma powners_app a : forall n b, powners n (a ++ b) = powners n a ++ powners (n + made_so_far a) b.
Proof.
  induction a as [|e a IH]; intros n b; cbn [app powners made_so_far]; [now rewrite Nat.add_0_r|].
  destruct e as [[o|t|hlp|k o|k t|k m|k args|k]|i|i|k|i|i|k args]; cbn [app]; rewrite ?IH; try reflexivity.
  do 2 f_equal. lia.
Qed.
Lemma made_so_far_app a b : made_so_far (a ++ b) = made_so_far a + made_so_far b.
Proof.
  induction a as [|e a IH]; cbn [app made_so_far]; [reflexivity|].
  destruct e as [[o|t|hlp|k o|k t|k m|k args|k]|i|i|k|i|i|k args]; rewrite IH; reflexivity.
Qed.

Lemma isdead_In l i : isdead l i = true <-> In i l.
Proof.
  unfold isdead. rewrite existsb_exists. split.
  - intros (x & H & E). apply Nat.eqb_eq in E. now subst.
  - intros H. exists i. split; [exact H|apply Nat.eqb_refl].
Qed.

Record linv (pre : list levent) (W : lworld) : Prop := {
  li_w : winv (owners 0 pre) (powners 0 pre) (made_so_far pre) (lw W);
  li_o : forall i, In i (dead_opts W) <-> gone_opt pre i;
  li_p : forall i, In i (dead_poss W) <-> gone_pos pre i;
  li_k : forall k, In k (dead_parsers W) <-> gone_parser pre k;
  li_kb : forall k, gone_parser pre k -> k < made_so_far pre
}.
Lemma linv_start : linv [] lstart.
Proof.
  split; cbn.
  - split; cbn; auto; try (intros [|k] p H; discriminate); intros [|i]; split; first [intros (b & H); discriminate|intros []].
  - intros i. split; [intros []|]. intros [[]|(k & H & _)]. destruct i; discriminate.
  - intros i. split; [intros []|intros []].
  - intros i. split; [intros []|intros []].
  - intros k [].
Qed.
(** Nothing destroyed by this event. *)
Lemma linv_quiet pre e W w : linv pre W -> (forall k, LEv e <> LKillParser k) ->
  winv (owners 0 pre ++ owners (made_so_far pre) [LEv e]) (powners 0 pre ++ powners (made_so_far pre) [LEv e])
    (made_so_far pre + made_so_far [LEv e]) w ->
  linv (pre ++ [LEv e]) (with_world W w).
Proof.
  intros [H1 H2 H3 H4 H5] _ Hw. split.
  - rewrite owners_app, powners_app, made_so_far_app. cbn [plus]. exact Hw.
  - intros i. cbn [with_world dead_opts]. rewrite H2. unfold gone_opt, gone_parser. rewrite owners_app. cbn [plus]. split.
    + intros [X|(k & X & Y)]; [left; apply in_or_app; auto|]. right. exists k. split; [|apply in_or_app; auto].
      rewrite nth_error_app1; [exact X|]. apply nth_error_Some. congruence.
    + intros [X|(k & X & Y)]; [apply in_snoc in X as [X|X]; [auto|discriminate]|].
      apply in_snoc in Y as [Y|Y]; [|discriminate]. right. exists k. split; [|exact Y].
      destruct (Nat.lt_ge_cases i (length (owners 0 pre))) as [L|L]; [now rewrite nth_error_app1 in X|].
      exfalso. rewrite nth_error_app2 in X by exact L. apply H5 in Y. revert X Y. destruct e as [o|t|hlp|k' o|k' t|k' m|k' args|k']; cbn [owners];
        generalize (i - length (owners 0 pre)); intros j X Y; try (destruct j as [|[|j]]; discriminate).
      destruct hlp; cbn in X; destruct j as [|[|j]]; cbn in X; try discriminate. injection X as <-. lia.
  - intros i. cbn [with_world dead_poss]. rewrite H3. unfold gone_pos. rewrite in_snoc. intuition discriminate.
  - intros i. cbn [with_world dead_parsers]. rewrite H4. unfold gone_parser. rewrite in_snoc. intuition discriminate.
  - intros k. unfold gone_parser. rewrite in_snoc. intros [X|X]; [|discriminate]. apply H5 in X. rewrite made_so_far_app. lia.
Qed.
Lemma winv_none pre e w : owners (made_so_far pre) [e] = [] -> powners (made_so_far pre) [e] = [] -> made_so_far [e] = 0 ->
  winv (owners 0 pre) (powners 0 pre) (made_so_far pre) w -> winv (owners 0 (pre ++ [e])) (powners 0 (pre ++ [e])) (made_so_far (pre ++ [e])) w.
Proof.
  intros E1 E2 E3 H. rewrite owners_app, powners_app, made_so_far_app. cbn [plus]. now rewrite E1, E2, E3, !app_nil_r, Nat.add_0_r.
Qed.

Lemma bind_inv {A B} (x : outcome A) (f : A -> outcome B) r : bind x f = Ok r -> exists a, x = Ok a /\ f a = Ok r.
Proof. destruct x as [a| |]; cbn; try discriminate. eauto. Qed.
Ltac binv H a := let E := fresh "E" in apply bind_inv in H as (a & E & H).

Lemma linv_step lb pre W e W' r : linv pre W -> lstep lb W e = Ok (W', r) -> linv (pre ++ [e]) W'.
Proof.
  intros H0 H. pose proof H0 as [H1 H2 H3 H4 H5]. destruct e as [e|i|i|k|i|i|k args]; cbn [lstep] in H.
  - assert (G : (exists w r', step lb (lw W) e = Ok (w, r') /\ W' = with_world W w) \/
      (exists k args p st, e = EParse k args /\ nth_error (w_parsers (lw W)) k = Some p /\ W' = with_world W (leave (lw W) k p st))).
    { destruct e as [o|t|hlp|k o|k t|k m|k args|k].
      - left. binv H x. destruct x. injection H as <- _. eauto.
      - left. binv H x. destruct x. injection H as <- _. eauto.
      - left. binv H x. binv H y. binv H z. destruct z. injection H as <- _. eauto.
      - left. binv H x. binv H y. destruct y. injection H as <- _. eauto.
      - left. binv H x. binv H y. destruct y. injection H as <- _. eauto.
      - left. binv H x. binv H y. destruct y. injection H as <- _. eauto.
      - right. binv H x. binv H p. binv H y. destruct y as [b st]. injection H as <- _. apply slot_get_inv in E0. eauto 8.
      - left. binv H x. binv H p. binv H y. binv H z. binv H q. destruct q. injection H as <- _. eauto. }
    destruct G as [(w & r' & E & ->)|(k & args & p & st & -> & Hp & ->)].
    + apply linv_quiet; [exact H0|discriminate|]. eapply winv_step; eauto.
    + apply linv_quiet; [exact H0|discriminate|]. cbn [owners powners made_so_far]. rewrite !app_nil_r, Nat.add_0_r.
      eapply winv_shape; [|exact H1]. now apply shape_leave.
  - binv H x. binv H y. injection H as <- _. apply slot_get_inv in E. split; cbn [lw dead_opts dead_poss dead_parsers].
    + now apply winv_none.
    + intros j. cbn [In]. rewrite H2. unfold gone_opt, gone_parser. rewrite owners_app. cbn [plus owners]. rewrite app_nil_r, in_snoc. split.
      * intros [<-|[X|(k & X & Y)]]; auto. right. exists k. rewrite in_snoc. auto.
      * intros [[X|X]|(k & X & Y)]; [auto|injection X as <-; auto|]. apply in_snoc in Y as [Y|Y]; [|discriminate]. right. right. eauto.
    + intros j. rewrite H3. unfold gone_pos. rewrite in_snoc. intuition discriminate.
    + intros j. rewrite H4. unfold gone_parser. rewrite in_snoc. intuition discriminate.
    + intros k. unfold gone_parser. rewrite in_snoc. intros [X|X]; [|discriminate]. apply H5 in X. rewrite made_so_far_app. lia.
  - binv H x. binv H y. injection H as <- _. apply slot_get_inv in E. split; cbn [lw dead_opts dead_poss dead_parsers].
    + now apply winv_none.
    + intros j. rewrite H2. unfold gone_opt, gone_parser. rewrite owners_app. cbn [plus owners]. rewrite app_nil_r, in_snoc. split.
      * intros [X|(k & X & Y)]; auto. right. exists k. rewrite in_snoc. auto.
      * intros [[X|X]|(k & X & Y)]; [auto|discriminate|]. apply in_snoc in Y as [Y|Y]; [|discriminate]. right. eauto.
    + intros j. cbn [In]. rewrite H3. unfold gone_pos. rewrite in_snoc. intuition congruence.
    + intros j. rewrite H4. unfold gone_parser. rewrite in_snoc. intuition discriminate.
    + intros k. unfold gone_parser. rewrite in_snoc. intros [X|X]; [|discriminate]. apply H5 in X. rewrite made_so_far_app. lia.
  - binv H p. binv H y. injection H as <- _. apply slot_get_inv in E. split; cbn [lw dead_opts dead_poss dead_parsers].
    + now apply winv_none.
    + intros j. unfold gone_opt, gone_parser. rewrite owners_app. cbn [plus owners]. rewrite app_nil_r.
      assert (Q : In j (if p_help p then nth 0 (p_opts p) 0 :: dead_opts W else dead_opts W) <->
                  In j (dead_opts W) \/ nth_error (owners 0 pre) j = Some (HelpOf k)).
      { split.
        - destruct (p_help p) eqn:Hh; [|auto]. intros [X|X]; [|auto]. right.
          destruct (wi_h _ _ _ _ H1 _ _ E Hh) as (i & Q1 & Q2). rewrite nth_or, Q1 in X. now subst.
        - intros [X|X]; [destruct (p_help p); [now right|exact X]|].
          destruct (wi_h2 _ _ _ _ H1 _ _ X) as (q & Hq & Hh & Hz). assert (q = p) by congruence. subst q. rewrite Hh. left.
          now rewrite nth_or, Hz. }
      rewrite Q, H2. unfold gone_opt, gone_parser. split.
      * intros [[X|(k' & X & Y)]|X]; [left; apply in_or_app; auto| |]; right; [exists k'|exists k]; rewrite in_snoc; auto.
      * intros [X|(k' & X & Y)]; [apply in_snoc in X as [X|X]; [auto|discriminate]|].
        apply in_snoc in Y as [Y|Y]; [left; right; eauto|]. injection Y as <-. auto.
    + intros j. rewrite H3. unfold gone_pos. rewrite in_snoc. intuition discriminate.
    + intros j. cbn [In]. rewrite H4. unfold gone_parser. rewrite in_snoc. intuition congruence.
    + intros j. unfold gone_parser. rewrite in_snoc, made_so_far_app. intros [X|X]; [apply H5 in X; lia|]. injection X as <-.
      assert (L : nth_error (w_parsers (lw W)) j <> None) by congruence. apply nth_error_Some in L. rewrite (wi_n _ _ _ _ H1) in L. lia.
  - binv H x. binv H y. injection H as <- _. split; auto.
    + now apply winv_none.
    + intros j. rewrite H2. unfold gone_opt, gone_parser. rewrite owners_app. cbn [plus owners]. rewrite app_nil_r, in_snoc. split.
      * intros [X|(k & X & Y)]; auto. right. exists k. rewrite in_snoc. auto.
      * intros [[X|X]|(k & X & Y)]; [auto|discriminate|]. apply in_snoc in Y as [Y|Y]; [|discriminate]. right. eauto.
    + intros j. rewrite H3. unfold gone_pos. rewrite in_snoc. intuition discriminate.
    + intros j. rewrite H4. unfold gone_parser. rewrite in_snoc. intuition discriminate.
    + intros k. unfold gone_parser. rewrite in_snoc. intros [X|X]; [|discriminate]. apply H5 in X. rewrite made_so_far_app. lia.
  - binv H x. binv H y. injection H as <- _. split; auto.
    + now apply winv_none.
    + intros j. rewrite H2. unfold gone_opt, gone_parser. rewrite owners_app. cbn [plus owners]. rewrite app_nil_r, in_snoc. split.
      * intros [X|(k & X & Y)]; auto. right. exists k. rewrite in_snoc. auto.
      * intros [[X|X]|(k & X & Y)]; [auto|discriminate|]. apply in_snoc in Y as [Y|Y]; [|discriminate]. right. eauto.
    + intros j. rewrite H3. unfold gone_pos. rewrite in_snoc. intuition discriminate.
    + intros j. rewrite H4. unfold gone_parser. rewrite in_snoc. intuition discriminate.
    + intros k. unfold gone_parser. rewrite in_snoc. intros [X|X]; [|discriminate]. apply H5 in X. rewrite made_so_far_app. lia.
  - binv H x. binv H p. binv H y. assert (W' = W) as ->.
    { destruct (error_only p args); [injection H as <- _; reflexivity|]. binv H z. binv H q. injection H as <- _. reflexivity. }
    split; auto.
    + now apply winv_none.
    + intros j. rewrite H2. unfold gone_opt, gone_parser. rewrite owners_app. cbn [plus owners]. rewrite app_nil_r, in_snoc. split.
      * intros [X|(k' & X & Y)]; auto. right. exists k'. rewrite in_snoc. auto.
      * intros [[X|X]|(k' & X & Y)]; [auto|discriminate|]. apply in_snoc in Y as [Y|Y]; [|discriminate]. right. eauto.
    + intros j. rewrite H3. unfold gone_pos. rewrite in_snoc. intuition discriminate.
    + intros j. rewrite H4. unfold gone_parser. rewrite in_snoc. intuition discriminate.
    + intros k'. unfold gone_parser. rewrite in_snoc. intros [X|X]; [|discriminate]. apply H5 in X. rewrite made_so_far_app. lia.
Qed.

(** * A disciplined program does not notice the destructions *)
Lemma touch_all_ok dead ids : (forall i, In i ids -> ~ In i dead) -> touch_all dead ids = Ok tt.
Proof.
  induction ids as [|i ids IH]; intros H; cbn [touch_all]; [reflexivity|]. unfold touch.
  destruct (isdead dead i) eqn:E; [apply isdead_In in E; exfalso; apply (H i); cbn; auto|]. cbn [bind]. apply IH. intros j Hj. apply H. now right.
Qed.
Lemma touch_all_dead dead ids i : In i ids -> In i dead -> touch_all dead ids = Fault UseAfterFree.
Proof.
  induction ids as [|j ids IH]; intros H D; [destruct H|]. destruct H as [->|H]; cbn [touch_all]; unfold touch.
  - apply isdead_In in D. now rewrite D.
  - destruct (isdead dead j); [reflexivity|]. cbn [bind]. auto.
Qed.
Lemma touch_ok dead i : ~ In i dead -> touch (isdead dead) i = Ok tt.
Proof. intros H. unfold touch. destruct (isdead dead i) eqn:E; [|reflexivity]. apply isdead_In in E. contradiction. Qed.
Lemma there_ok pre W k : linv pre W -> parser_there pre k -> use_parser W k = Ok tt /\ exists p, nth_error (w_parsers (lw W)) k = Some p.
Proof.
  intros H [L G]. split.
  - unfold use_parser. destruct (isdead (dead_parsers W) k) eqn:E; [|reflexivity]. apply isdead_In in E. apply (li_k _ _ H) in E. contradiction.
  - rewrite <- (wi_n _ _ _ _ (li_w _ _ H)) in L. apply nth_error_Some in L. destruct (nth_error (w_parsers (lw W)) k); [eauto|congruence].
Qed.
Lemma dead_at_false dead ids (j : nat) : (forall i, In i ids -> ~ In i dead) -> dead_at dead ids j = false.
Proof.
  intros H. unfold dead_at. destruct (nth_error ids j) as [i|] eqn:E; [|reflexivity]. apply nth_error_In in E.
  destruct (isdead dead i) eqn:D; [|reflexivity]. apply isdead_In in D. exfalso. exact (H i E D).
Qed.

Definition agrees (x : outcome (world * lout)) (y : outcome (lworld * lout)) : Prop :=
  match x with
  | Ok (w, r) => exists W', y = Ok (W', r) /\ lw W' = w
  | Fault f => y = Fault f
  | Diverge => y = Diverge
  end.
Lemma agree lb pre W e : linv pre W -> allowed pre e -> agrees (keep_step lb (lw W) e) (lstep lb W e).
Proof.
  intros H A. pose proof (li_w _ _ H) as Hw.
  assert (Slot : forall X (l : list X) i n, length l = n -> i < n -> exists x, slot_get l i = Ok x).
  { intros X l i n <- L. apply nth_error_Some in L. unfold slot_get. destruct (nth_error l i); [eauto|congruence]. }
  destruct e as [e|i|i|k|i|i|k args].
  - destruct e as [o|t|hlp|k o|k t|k m|k args|k]; cbn [keep_step lstep allowed] in *.
    + cbn [step bind]. eexists. split; reflexivity.
    + cbn [step bind]. eexists. split; reflexivity.
    + destruct A as [A1 A2]. rewrite !touch_all_ok.
      * cbn [bind]. rewrite step_parser. cbn [bind]. eexists. split; reflexivity.
      * intros i Hi. apply (wi_sp _ _ _ _ Hw) in Hi. rewrite (li_p _ _ H). auto.
      * intros i Hi. apply (wi_s _ _ _ _ Hw) in Hi. rewrite (li_o _ _ H). auto.
    + destruct (there_ok _ _ _ H A) as [-> (p & Hp)]. cbn [bind step]. unfold slot_get. rewrite Hp. cbn [bind]. eexists. split; reflexivity.
    + destruct (there_ok _ _ _ H A) as [-> (p & Hp)]. cbn [bind step]. unfold slot_get. rewrite Hp. cbn [bind]. eexists. split; reflexivity.
    + destruct (there_ok _ _ _ H A) as [-> (p & Hp)]. cbn [bind step]. unfold slot_get. rewrite Hp. cbn [bind]. eexists. split; reflexivity.
    + destruct A as [A [B1 B2]]. destruct (there_ok _ _ _ H A) as [-> (p & Hp)]. cbn [bind step]. unfold slot_get. rewrite Hp. cbn [bind].
      rewrite lparse_alive.
      * destruct (parse lb (cfg_of (lw W) p) (view (lw W) p) args) as [[b st]| |]; cbn [bind agrees]; auto. eexists. split; reflexivity.
      * intros j _. apply dead_at_false. intros i Hi. rewrite (li_o _ _ H). apply B1. now apply (wi_k _ _ _ _ Hw _ _ Hp).
      * intros j _. apply dead_at_false. intros i Hi. rewrite (li_p _ _ H). apply B2. now apply (wi_kp _ _ _ _ Hw _ _ Hp).
    + destruct A as [A [B1 B2]]. destruct (there_ok _ _ _ H A) as [-> (p & Hp)]. cbn [bind step]. unfold slot_get. rewrite Hp. cbn [bind].
      rewrite !touch_all_ok.
      * cbn [bind]. eexists. split; reflexivity.
      * intros i Hi. rewrite (li_p _ _ H). apply B2. now apply (wi_kp _ _ _ _ Hw _ _ Hp).
      * intros i Hi. rewrite (li_o _ _ H). apply B1. now apply (wi_k _ _ _ _ Hw _ _ Hp).
  - destruct A as (L & G & _). cbn [keep_step lstep agrees]. destruct (Slot _ _ _ _ (wi_o _ _ _ _ Hw) L) as (x & ->). cbn [bind].
    rewrite touch_ok by now rewrite (li_o _ _ H). cbn [bind]. eexists. split; reflexivity.
  - destruct A as (L & G). cbn [keep_step lstep agrees]. destruct (Slot _ _ _ _ (wi_p _ _ _ _ Hw) L) as (x & ->). cbn [bind].
    rewrite touch_ok by now rewrite (li_p _ _ H). cbn [bind]. eexists. split; reflexivity.
  - cbn [keep_step lstep agrees]. destruct (there_ok _ _ _ H A) as [-> (p & Hp)]. unfold slot_get. rewrite Hp. cbn [bind]. eexists. split; reflexivity.
  - destruct A as (L & G). cbn [keep_step lstep]. destruct (Slot _ _ _ _ (wi_o _ _ _ _ Hw) L) as (x & ->). cbn [bind].
    rewrite touch_ok by now rewrite (li_o _ _ H). cbn [bind agrees]. eexists. split; reflexivity.
  - destruct A as (L & G). cbn [keep_step lstep]. destruct (Slot _ _ _ _ (wi_p _ _ _ _ Hw) L) as (x & ->). cbn [bind].
    rewrite touch_ok by now rewrite (li_p _ _ H). cbn [bind agrees]. eexists. split; reflexivity.
  - destruct A as [A [B1 B2]]. cbn [keep_step lstep]. destruct (there_ok _ _ _ H A) as [-> (p & Hp)]. unfold slot_get. rewrite Hp. cbn [bind].
    rewrite !touch_all_ok.
    + cbn [bind]. destruct (error_only p args); eexists; split; reflexivity.
    + intros i Hi. rewrite (li_o _ _ H). apply B1. now apply (wi_k _ _ _ _ Hw _ _ Hp).
    + intros i Hi. rewrite (li_p _ _ H). apply B2. now apply (wi_kp _ _ _ _ Hw _ _ Hp).
Qed.

Lemma agree_run lb : forall es pre W, linv pre W -> (forall a e b, es = a ++ e :: b -> allowed (pre ++ a) e) ->
  match keep_run lb (lw W) es with
  | Ok (w, rs) => exists W', lrun lb W es = Ok (W', rs) /\ lw W' = w
  | Fault f => lrun lb W es = Fault f
  | Diverge => lrun lb W es = Diverge
  end.
Proof.
  induction es as [|e es IH]; intros pre W H D; cbn [keep_run lrun]; [eauto|].
  assert (A : allowed pre e) by (specialize (D [] e es eq_refl); now rewrite app_nil_r in D).
  pose proof (agree lb pre W e H A) as G. unfold agrees in G.
  destruct (keep_step lb (lw W) e) as [[w r]| |]; cbn [bind]; [|now rewrite G|now rewrite G].
  destruct G as (W' & G & <-). rewrite G. cbn [bind].
  specialize (IH (pre ++ [e]) W' (linv_step _ _ _ _ _ _ H G)).
  assert (D' : forall a x b, es = a ++ x :: b -> allowed ((pre ++ [e]) ++ a) x).
  { intros a x b ->. rewrite <- app_assoc. apply (D (e :: a) x b). reflexivity. }
  specialize (IH D'). destruct (keep_run lb (lw W') es) as [[w' rs]| |]; cbn [bind]; [|now rewrite IH|now rewrite IH].
  destruct IH as (W2 & IH & E). rewrite IH. cbn [bind]. eauto.
Qed.

Lemma linv_run lb : forall es pre W W' rs, linv pre W -> lrun lb W es = Ok (W', rs) -> linv (pre ++ es) W'.
Proof.
  induction es as [|e es IH]; intros pre W W' rs H E; cbn [lrun] in E.
  - injection E as <- _. now rewrite app_nil_r.
  - binv E x. destruct x as [W1 r]. binv E y. destruct y as [W2 rs']. injection E as <- _.
    apply (linv_step _ _ _ _ _ _ H) in E0. specialize (IH _ _ _ _ E0 E1). now rewrite <- app_assoc in IH.
Qed.
Lemma lrun_snoc lb : forall es W W' rs e, lrun lb W es = Ok (W', rs) ->
  lrun lb W (es ++ [e]) = do (W2, r) <- lstep lb W' e; Ok (W2, rs ++ [r]).
Proof.
  induction es as [|x es IH]; intros W W' rs e E; cbn [lrun app] in *.
  - injection E as <- <-. destruct (lstep lb W e) as [[W2 r]| |]; reflexivity.
  - binv E y. destruct y as [W1 r]. binv E z. destruct z as [W2 rs']. injection E as <- <-. rewrite E0. cbn [bind].
    rewrite (IH _ _ _ e E1). destruct (lstep lb W2 e) as [[W3 r']| |]; reflexivity.
Qed.

(** * Undisciplined ones do *)
Lemma reset_dead lb es W rs k i : lrun lb lstart es = Ok (W, rs) -> parser_there es k -> known_by (owners 0 es) k i -> gone_opt es i ->
  lrun lb lstart (es ++ [LEv (EReset k)]) = Fault UseAfterFree.
Proof.
  intros E T K G. pose proof (linv_run lb es [] _ _ _ linv_start E) as H. cbn [app] in H. rewrite (lrun_snoc _ _ _ _ _ _ E). cbn [lstep].
  destruct (there_ok _ _ _ H T) as [-> (p & Hp)]. unfold slot_get. rewrite Hp. cbn [bind].
  rewrite (touch_all_dead _ _ i); [reflexivity| |].
  - now apply (wi_k _ _ _ _ (li_w _ _ H) _ _ Hp).
  - now apply (li_o _ _ H).
Qed.
Lemma parser_dead lb es W rs hlp i : lrun lb lstart es = Ok (W, rs) -> is_shared (owners 0 es) i -> gone_opt es i ->
  lrun lb lstart (es ++ [LEv (EParser hlp)]) = Fault UseAfterFree.
Proof.
  intros E K G. pose proof (linv_run lb es [] _ _ _ linv_start E) as H. cbn [app] in H. rewrite (lrun_snoc _ _ _ _ _ _ E). cbn [lstep].
  rewrite (touch_all_dead _ _ i); [reflexivity| |].
  - now apply (wi_s _ _ _ _ (li_w _ _ H)).
  - now apply (li_o _ _ H).
Qed.
Lemma usage_dead_pos lb es W rs k args i : lrun lb lstart es = Ok (W, rs) -> parser_there es k -> known_by (powners 0 es) k i -> gone_pos es i ->
  lrun lb lstart (es ++ [LUsage k args]) = Fault UseAfterFree.
Proof.
  intros E T K G. pose proof (linv_run lb es [] _ _ _ linv_start E) as H. cbn [app] in H. rewrite (lrun_snoc _ _ _ _ _ _ E). cbn [lstep].
  destruct (there_ok _ _ _ H T) as [-> (p & Hp)]. unfold slot_get. rewrite Hp. cbn [bind].
  rewrite (touch_all_dead _ (p_poss p) i); [reflexivity| |].
  - now apply (wi_kp _ _ _ _ (li_w _ _ H) _ _ Hp).
  - now apply (li_p _ _ H).
Qed.
Lemma usage_dead_opt lb es W rs k args i h : lrun lb lstart es = Ok (W, rs) -> parser_there es k -> known_by (owners 0 es) k i -> gone_opt es i ->
  nth_error (owners 0 es) h = Some (HelpOf k) -> In (lit "-h") args \/ In (lit "--help") args ->
  lrun lb lstart (es ++ [LUsage k args]) = Fault UseAfterFree.
Proof.
  intros E T K G Hh Ha. pose proof (linv_run lb es [] _ _ _ linv_start E) as H. cbn [app] in H. rewrite (lrun_snoc _ _ _ _ _ _ E). cbn [lstep].
  destruct (there_ok _ _ _ H T) as [-> (p & Hp)]. unfold slot_get. rewrite Hp. cbn [bind].
  assert (Q : touch_all (dead_poss W) (p_poss p) = Ok tt \/ touch_all (dead_poss W) (p_poss p) = Fault UseAfterFree).
  { generalize (p_poss p). intros l. induction l as [|x l IH]; cbn [touch_all]; [now left|]. unfold touch. destruct (isdead (dead_poss W) x); cbn [bind]; [now right|exact IH]. }
  destruct Q as [Q|Q]; rewrite Q; cbn [bind]; [|reflexivity].
  assert (O : error_only p args = false).
  { unfold error_only. destruct (p_error p); [|reflexivity]. destruct (wi_h2 _ _ _ _ (li_w _ _ H) _ _ Hh) as (q & Hq & Hp' & _).
    assert (q = p) as -> by congruence. rewrite Hp'. cbn [negb orb]. apply negb_false_iff. apply existsb_exists.
    destruct Ha as [Ha|Ha]; eexists; (split; [exact Ha|reflexivity]). }
  rewrite O, (touch_all_dead _ (p_opts p) i); [reflexivity| |].
  - now apply (wi_k _ _ _ _ (li_w _ _ H) _ _ Hp).
  - now apply (li_o _ _ H).
Qed.
Lemma missing_dead lb es W rs k i : lrun lb lstart es = Ok (W, rs) -> parser_there es k -> known_by (powners 0 es) k i ->
  (forall j, known_by (powners 0 es) k j -> gone_pos es j) ->
  lrun lb lstart (es ++ [LEv (EParse k [])]) = Fault UseAfterFree.
Proof.
  intros E T K G. pose proof (linv_run lb es [] _ _ _ linv_start E) as H. cbn [app] in H. rewrite (lrun_snoc _ _ _ _ _ _ E). cbn [lstep].
  destruct (there_ok _ _ _ H T) as [-> (p & Hp)]. unfold slot_get. rewrite Hp. cbn [bind]. unfold lparse. cbn [lloop bind negb andb].
  pose proof (wi_kp _ _ _ _ (li_w _ _ H) _ _ Hp) as Q.
  destruct (p_poss p) as [|j ids] eqn:Ep; [apply Q in K; destruct K|].
  cbn [cfg_of positionals]. rewrite Ep. cbn [map length Nat.ltb Nat.leb]. unfold touch, dead_at. cbn [nth_error].
  assert (D : isdead (dead_poss W) j = true). { apply isdead_In. apply (li_p _ _ H). apply G. apply Q. now left. }
  now rewrite D.
Qed.

(** An option name nobody has: the search touches every option. *)
Lemma lfind_dead dead f : forall os i j, (forall o, In o os -> f o = false) -> i <= j < i + length os -> dead j = true ->
  lfind dead f os i = Fault UseAfterFree.
Proof.
  induction os as [|o os IH]; intros i j Hf L D; cbn [length] in L; [lia|]. cbn [lfind]. unfold touch.
  destruct (dead i) eqn:Di; [reflexivity|]. cbn [bind]. rewrite (Hf o) by now left.
  destruct (Nat.eq_dec i j) as [->|]; [congruence|]. apply (IH (S i) j); auto; [|lia]. intros x Hx. apply Hf. now right.
Qed.

Lemma named_app a b : named (a ++ b) = named a ++ named b.
Proof.
  induction a as [|e a IH]; cbn [app named]; [reflexivity|].
  destruct e as [[o|t|[]|k o|k t|k m|k args|k]|i|i|k|i|i|k args]; cbn [app]; rewrite ?IH; reflexivity.
Qed.
Section NoPass.
Variable lb : Z.
Variable dead_o dead_p : nat -> bool.
Variable c : cfg.
Hypothesis Hc : allow_pass c = false.
Definition res_st (r : lres) : pstate := match r with LErr st => st | LDone _ _ st => st end.
Lemma lread_pass st pos arg h : lread_head dead_o dead_p c st pos arg = Ok h -> has_pass st = false ->
  match h with HSkip st' => has_pass st' = false | _ => True end.
Proof.
  unfold lread_head. rewrite Hc. cbn [andb]. intros H Hs. rewrite Hs in H.
  destruct (is_option c arg).
  - binv H r. destruct r as [[[i vp] sep]|]; [|injection H as <-; exact I]. binv H k. binv H vs.
    destruct (negb (will_repeat k vs)); [injection H as <-; exact I|]. destruct sep as [q|]; [|injection H as <-; exact I].
    binv H v. destruct (must_omit k); injection H as <-; exact I.
  - destruct (length (positionals c) <=? pos); [destruct (collect_extra c)|]; try (injection H as <-; auto); try exact I.
    binv H u. injection H as <-. exact I.
Qed.
Lemma store_pass st i x : has_pass (store c st i x) = has_pass st.
Proof. reflexivity. Qed.
Lemma lloop_pass : forall n args pos st r, length args <= n -> lloop lb dead_o dead_p c args pos st = Ok r -> has_pass st = false ->
  has_pass (res_st r) = false.
Proof.
  induction n as [|n IH]; intros [|arg rest] pos st r L H Hs; cbn [length] in L; try lia;
    try (cbn in H; injection H as <-; exact Hs).
  cbn [lloop] in H. binv H h. pose proof (lread_pass _ _ _ _ E Hs) as Q.
  destruct h as [e|st'|i vp|i v].
  - injection H as <-. exact Hs.
  - eapply IH; [|exact H|exact Q]. lia.
  - destruct (nth_error (options c) i) as [o|]; [|discriminate]. cbn zeta in H.
    destruct vp as [v|]; [|destruct rest as [|nx rest']].
    + binv H x. destruct x as [x|].
      * destruct (halts (o_kind o)); [injection H as <-; exact Hs|]. eapply IH; [|exact H|exact Hs]. lia.
      * destruct (can_omit (o_kind o)); [|injection H as <-; exact Hs]. destruct (halts (o_kind o)); [injection H as <-; exact Hs|].
        eapply IH; [|exact H|exact Hs]. lia.
    + destruct (can_omit (o_kind o)); [|injection H as <-; exact Hs]. binv H x. destruct x; injection H as <-; exact Hs.
    + cbn [length] in L. destruct (must_omit (o_kind o)).
      * binv H x. destruct x as [x|].
        -- destruct (halts (o_kind o)); [injection H as <-; exact Hs|]. eapply IH; [|exact H|exact Hs]. cbn [length]. lia.
        -- destruct (can_omit (o_kind o)); [|discriminate]. destruct (halts (o_kind o)); [injection H as <-; exact Hs|].
           eapply IH; [|exact H|exact Hs]. cbn [length]. lia.
      * binv H x. destruct x as [x|].
        -- destruct (halts (o_kind o)); [injection H as <-; exact Hs|]. eapply IH; [|exact H|exact Hs]. lia.
        -- destruct (can_omit (o_kind o)); [|injection H as <-; exact Hs]. destruct (halts (o_kind o)); [injection H as <-; exact Hs|].
           eapply IH; [|exact H|exact Hs]. cbn [length]. lia.
  - destruct (nth_error (positionals c) i) as [p|]; [|discriminate]. binv H x. destruct x as [x|]; [|injection H as <-; exact Hs].
    eapply IH; [|exact H|exact Hs]. lia.
Qed.
Lemma lparse_pass st args b st' : lparse lb dead_o dead_p c st args = Ok (b, st') -> has_pass st = false -> has_pass st' = false.
Proof.
  unfold lparse. intros H Hs. binv H r. apply (lloop_pass (length args)) in E; [|lia|exact Hs].
  destruct r as [st1|pos h st1]; cbn [res_st] in E; [injection H as <- <-; exact E|].
  destruct (negb h && (pos <? length (positionals c))); [binv H u|]; injection H as <- <-; exact E.
Qed.
End NoPass.

(** No parser that was not told to is passing arguments through; the options are those of the history. *)
Record pinv (pre : list levent) (W : lworld) : Prop := {
  pi_d : map fst (w_opts (lw W)) = named pre;
  pi_n : length (w_parsers (lw W)) = made_so_far pre;
  pi_p : forall k p, nth_error (w_parsers (lw W)) k = Some p -> ~ In (LEv (EMode k AllowPassthrough)) pre ->
    p_pass p = false /\ p_has_pass p = false
}.
Lemma pinv_start : pinv [] lstart.
Proof. split; cbn; auto. intros [|k] p H; discriminate. Qed.
Lemma pinv_step lb pre W e W' r : pinv pre W -> lstep lb W e = Ok (W', r) -> pinv (pre ++ [e]) W'.
Proof.
  intros [H1 Hn H2] H.
  assert (Upd : forall l k (x : parser) k' p, nth_error (upd l k x) k' = Some p -> k = k' /\ p = x \/ nth_error l k' = Some p).
  { intros l k x k' p Hp. rewrite nth_upd in Hp. destruct (Nat.eqb_spec k k') as [->|Ne]; cbn [andb] in Hp; auto.
    destruct (k' <? length l); [injection Hp as <-|]; auto. }
  destruct e as [e|i|i|k|i|i|k args]; cbn [lstep] in H.
  2-7: repeat (match type of H with bind _ _ = Ok _ => let x := fresh "x" in binv H x end); try (destruct (error_only _ _)); repeat (match type of H with bind _ _ = Ok _ => let x := fresh "x" in binv H x end); injection H as <- _;
    (split; cbn [lw]; [rewrite named_app; cbn; now rewrite app_nil_r|rewrite made_so_far_app; cbn; lia|
     intros k' p Hk Hi; apply (H2 k' p Hk); intros X; apply Hi; apply in_or_app; auto]).
  destruct e as [o|t|hlp|k o|k t|k m|k args|k].
  - cbn [step bind] in H. injection H as <- _. split; cbn.
    + rewrite map_app, named_app, H1. reflexivity.
    + rewrite made_so_far_app. cbn. lia.
    + intros k' p Hk Hi. apply (H2 k' p Hk). intros X. apply Hi. apply in_or_app. auto.
  - cbn [step bind] in H. injection H as <- _. split; cbn.
    + rewrite named_app, H1. cbn. now rewrite app_nil_r.
    + rewrite made_so_far_app. cbn. lia.
    + intros k' p Hk Hi. apply (H2 k' p Hk). intros X. apply Hi. apply in_or_app. auto.
  - binv H x. binv H y. rewrite step_parser in H. cbn [bind] in H. injection H as <- _. split; cbn [with_world lw w_opts w_parsers].
    + rewrite named_app. destruct hlp; cbn; rewrite ?map_app, ?app_nil_r, H1; reflexivity.
    + rewrite app_length, made_so_far_app. cbn. lia.
    + intros k' p Hk Hi. apply nth_snoc in Hk as [Hk|[-> ->]]; [|auto]. apply (H2 k' p Hk). intros X. apply Hi. apply in_or_app. auto.
  - binv H x. cbn [step] in H. binv H y. binv E0 q. injection E0 as <-. injection H as <- _. split; cbn.
    + rewrite map_app, named_app, H1. reflexivity.
    + rewrite upd_length, made_so_far_app. cbn. lia.
    + apply slot_get_inv in E1. intros k' p Hk Hi.
      assert (Hi' : ~ In (LEv (EMode k' AllowPassthrough)) pre) by (intros X; apply Hi; apply in_or_app; auto).
      apply Upd in Hk as [(<- & ->)|Hk]; [exact (H2 _ _ E1 Hi')|exact (H2 _ _ Hk Hi')].
  - binv H x. cbn [step] in H. binv H y. binv E0 q. injection E0 as <-. injection H as <- _. split; cbn.
    + rewrite named_app, H1. cbn. now rewrite app_nil_r.
    + rewrite upd_length, made_so_far_app. cbn. lia.
    + apply slot_get_inv in E1. intros k' p Hk Hi.
      assert (Hi' : ~ In (LEv (EMode k' AllowPassthrough)) pre) by (intros X; apply Hi; apply in_or_app; auto).
      apply Upd in Hk as [(<- & ->)|Hk]; [exact (H2 _ _ E1 Hi')|exact (H2 _ _ Hk Hi')].
  - binv H x. cbn [step] in H. binv H y. binv E0 q. injection E0 as <-. injection H as <- _. split; cbn.
    + rewrite named_app, H1. cbn. now rewrite app_nil_r.
    + rewrite upd_length, made_so_far_app. cbn. lia.
    + apply slot_get_inv in E1. intros k' p Hk Hi.
      assert (Hi' : ~ In (LEv (EMode k' AllowPassthrough)) pre) by (intros X; apply Hi; apply in_or_app; auto).
      apply Upd in Hk as [(<- & ->)|Hk]; [|exact (H2 _ _ Hk Hi')]. cbn. destruct (H2 _ _ E1 Hi') as [Q1 Q2]. split; [|exact Q2].
      destruct m; auto. exfalso. apply Hi. apply in_or_app. right. now left.
  - binv H x. binv H q. binv H y. destruct y as [b st]. injection H as <- _. apply slot_get_inv in E0. split; cbn.
    + rewrite write_fst, named_app, H1. cbn. now rewrite app_nil_r.
    + rewrite upd_length, made_so_far_app. cbn. lia.
    + intros k' p Hk Hi. assert (Hi' : ~ In (LEv (EMode k' AllowPassthrough)) pre) by (intros X; apply Hi; apply in_or_app; auto).
      apply Upd in Hk as [(<- & ->)|Hk]; [|exact (H2 _ _ Hk Hi')]. cbn. destruct (H2 _ _ E0 Hi') as [Q1 Q2]. split; [exact Q1|].
      eapply lparse_pass; [|exact E1|exact Q2]. exact Q1.
  - binv H x. binv H q. binv H y. binv H z. cbn [step] in H. binv H u. binv E3 q'. injection E3 as <-. injection H as <- _.
    apply slot_get_inv in E0. apply slot_get_inv in E4. split; cbn.
    + rewrite write_fst, named_app, H1. cbn. now rewrite app_nil_r.
    + rewrite upd_length, made_so_far_app. cbn. lia.
    + intros k' p Hk Hi. assert (Hi' : ~ In (LEv (EMode k' AllowPassthrough)) pre) by (intros X; apply Hi; apply in_or_app; auto).
      apply Upd in Hk as [(<- & ->)|Hk]; [|exact (H2 _ _ Hk Hi')]. cbn. exact (H2 _ _ E4 Hi').
Qed.
Lemma pinv_run lb : forall es pre W W' rs, pinv pre W -> lrun lb W es = Ok (W', rs) -> pinv (pre ++ es) W'.
Proof.
  induction es as [|e es IH]; intros pre W W' rs H E; cbn [lrun] in E.
  - injection E as <- _. now rewrite app_nil_r.
  - binv E x. destruct x as [W1 r]. binv E y. destruct y as [W2 rs']. injection E as <- _.
    apply (pinv_step _ _ _ _ _ _ H) in E0. specialize (IH _ _ _ _ E0 E1). now rewrite <- app_assoc in IH.
Qed.

Lemma strchr_none ch s : ~ In ch s -> strchr s ch = None.
Proof.
  induction s as [|x s IH]; cbn; auto. intros H. destruct (N.eqb_spec x ch); [exfalso; auto|]. now rewrite IH by auto.
Qed.
Lemma name_eq m s : length m = length s -> strncmp_eq (length s) m s = true -> m = s.
Proof.
  revert s. induction m as [|x m IH]; intros [|y s]; cbn; try discriminate; auto. intros L E. injection L as L.
  apply andb_true_iff in E as [E1 E2]. apply N.eqb_eq in E1. subst. f_equal. auto.
Qed.
Lemma unknown_dead lb es W rs k i n : lrun lb lstart es = Ok (W, rs) -> parser_there es k ->
  known_by (owners 0 es) k i -> gone_opt es i -> ~ In (LEv (EMode k AllowPassthrough)) es ->
  ~ In c_eq n -> ~ In c_colon n -> (forall o, In o (named es) -> o_long o <> Some n) ->
  forall rest, lrun lb lstart (es ++ [LEv (EParse k ((lit "--" ++ n) :: rest))]) = Fault UseAfterFree.
Proof.
  intros E T K G Hpass He Hc Hn rest. pose proof (linv_run lb es [] _ _ _ linv_start E) as H. pose proof (pinv_run lb es [] _ _ _ pinv_start E) as Hi.
  cbn [app] in H, Hi. rewrite (lrun_snoc _ _ _ _ _ _ E). cbn [lstep].
  destruct (there_ok _ _ _ H T) as [-> (p & Hp)]. unfold slot_get. rewrite Hp. cbn [bind].
  destruct (pi_p _ _ Hi _ _ Hp Hpass) as [P1 P2].
  set (dead_o := dead_at _ _). set (dead_p := dead_at _ _). set (c := cfg_of (lw W) p).
  assert (F : lfind_long dead_o c n (length n) = Fault UseAfterFree).
  { unfold lfind_long. apply (wi_k _ _ _ _ (li_w _ _ H) _ _ Hp) in K. apply In_nth_error in K as (j & Hj).
    apply (lfind_dead _ _ _ _ j).
    - intros o Ho. cbn [c cfg_of options] in Ho. apply in_map_iff in Ho as (a & <- & Ha).
      assert (Hin : In (fst (opt_at (lw W) a)) (named es)).
      { rewrite <- (pi_d _ _ Hi). apply in_map. unfold opt_at. apply nth_In.
        apply (wi_k _ _ _ _ (li_w _ _ H) _ _ Hp) in Ha as (x & Hx & _). rewrite (wi_o _ _ _ _ (li_w _ _ H)). apply nth_error_Some. congruence. }
      apply Hn in Hin. unfold name_matches. destruct (o_long (fst (opt_at (lw W) a))) as [m|]; [|reflexivity].
      destruct (length m =? length n) eqn:L; cbn [andb]; [|reflexivity]. apply Nat.eqb_eq in L.
      destruct (strncmp_eq (length n) m n) eqn:Em; [|reflexivity]. exfalso. apply Hin. f_equal. now apply name_eq.
    - split; [lia|]. cbn [c cfg_of options plus]. rewrite map_length. apply nth_error_Some. congruence.
    - unfold dead_o, dead_at. rewrite Hj. apply isdead_In. now apply (li_o _ _ H). }
  assert (R : lresolve dead_o c (lit "--" ++ n) = Fault UseAfterFree).
  { unfold lresolve. assert (A1 : strchr (lit "--" ++ n) c_eq = None) by (cbn; now rewrite strchr_none).
    assert (A2 : strchr (lit "--" ++ n) c_colon = None) by (cbn; now rewrite strchr_none).
    rewrite A1, A2. replace (if inline_values c then @None nat else None) with (@None nat) by now destruct (inline_values c).
    cbn [bind]. replace (N.eqb (chr (lit "--" ++ n) 0) c_dash && N.eqb (chr (lit "--" ++ n) 1) c_dash) with true by reflexivity.
    unfold ptr_add, size_sub. change (length (lit "--" ++ n)) with (S (S (length n))). cbn [Nat.leb bind].
    replace (S (S (length n)) - 2) with (length n) by lia. change (skipn 2 (lit "--" ++ n)) with n. cbn [bind]. rewrite F. reflexivity. }
  unfold lparse. cbn [lloop]. unfold lread_head.
  replace (allow_pass c) with false by (symmetry; exact P1). cbn [andb]. replace (has_pass (view (lw W) p)) with false by (symmetry; exact P2).
  replace (is_option c (lit "--" ++ n)) with true by reflexivity. rewrite R. reflexivity.
Qed.
