(** Command lines written from settings; reset. *)
From Coq Require Import String.
From Verif Require Import Base ArgModel ArgSpec ArgProofs1 ArgProofs2.
Local Open Scope nat_scope.
Local Open Scope list_scope.

Lemma F2_cons {A B} (R : A -> B -> Prop) x y l l' : Forall2 R (x :: l) (y :: l') -> R x y /\ Forall2 R l l'.
Proof. intros H. inversion H; subst. auto. Qed.

Section Says.
Variable lb : Z.
Hypothesis Hlb : (0 < lb)%Z.
Variable c : cfg.
Hypothesis Hok : cfg_ok c.

Definition apply_setting (st : pstate) (s : setting) : pstate :=
  match s with
  | Give i x => match nth_error (options c) i with Some o => given st i o x | None => st end
  | Place k x => given_pos st k x
  | Also a => add_extra st a
  end.
Definition apply_all (st : pstate) (ss : list setting) : pstate := fold_left apply_setting ss st.
Definition pos_after (pos : nat) (ss : list setting) : nat := pos + length (placed ss).

Lemma fits_apply st s : fits c st -> fits c (apply_setting st s).
Proof.
  intros H. destruct s; cbn [apply_setting].
  - destruct (nth_error (options c) i); [now apply fits_given|exact H].
  - now apply fits_pos.
  - exact H.
Qed.
Lemma pass_apply st s : has_pass (apply_setting st s) = has_pass st.
Proof. destruct s; cbn [apply_setting]; try reflexivity. destruct (nth_error (options c) i); reflexivity. Qed.

Lemma spelled_attached_eq sp i o n v : spelled c sp i o n -> (inline_values c = true -> v <> []) ->
  attached (inline_values c) (n ++ c_eq :: v) n v.
Proof. intros H Hv. apply (spelled_name c Hok) in H as (_ & _ & He & _). left. auto. Qed.
Lemma spelled_attached_colon sp i o n v : spelled c sp i o n -> inline_values c = true -> v <> [] -> ~ In c_eq v ->
  attached (inline_values c) (n ++ c_colon :: v) n v.
Proof.
  intros H Hi Hv Hv2. apply (spelled_name c Hok) in H as (_ & _ & He & Hc). right. specialize (Hc Hi).
  split; [auto|]. split; [auto|]. split; [|auto]. intros Hin. apply in_app_or in Hin as [Hin|[Hin|Hin]]; auto. discriminate.
Qed.

(** One setting. *)
Lemma written_step st pos s part rest :
  fits c st -> has_pass st = false -> written lb c s part ->
  (forall i x o, s = Give i x -> nth_error (options c) i = Some o -> free st i o) ->
  (forall k x, s = Place k x -> k = pos) -> (forall a, s = Also a -> length (positionals c) <= pos) ->
  loop lb c (part ++ rest) pos st = loop lb c rest (pos_after pos [s]) (apply_setting st s).
Proof.
  intros Hf Hp Hw Hfr Hpl Hal.
  destruct Hw as [sp i o n v p x Hs Ht Hr Hv|sp i o n v p x Hs Ht Hr Hi Hv Hv2|sp i o n v p x Hs Ht Hr
                 |sp i o ch v p x Hg Ht Hr|sp i o n x Hs Hv Hk|i o n Hs Hk|k p a x Hk Ha Hr|a Hc Ha];
    cbn [app apply_setting]; unfold pos_after; cbn [placed flat_map length app]; rewrite ?Nat.add_0_r.
  - rewrite (proj1 Hs). assert (Hfree : free st i o) by (eapply Hfr; [reflexivity|apply Hs]).
    pose proof (head_attached c Hok st pos sp i o n v _ Hf Hp Hs (spelled_attached_eq _ _ _ _ _ Hs Hv) Hfree) as E.
    rewrite (proj1 (takes_facts lb o p Ht)) in E.
    exact (step_value lb Hlb c st pos _ rest i o p v x (proj1 Hs) E Ht Hr).
  - rewrite (proj1 Hs). assert (Hfree : free st i o) by (eapply Hfr; [reflexivity|apply Hs]).
    pose proof (head_attached c Hok st pos sp i o n v _ Hf Hp Hs (spelled_attached_colon _ _ _ _ _ Hs Hi Hv Hv2) Hfree) as E.
    rewrite (proj1 (takes_facts lb o p Ht)) in E.
    exact (step_value lb Hlb c st pos _ rest i o p v x (proj1 Hs) E Ht Hr).
  - rewrite (proj1 Hs). assert (Hfree : free st i o) by (eapply Hfr; [reflexivity|apply Hs]).
    pose proof (head_bare c Hok st pos sp i o n Hf Hp Hs Hfree) as E.
    rewrite (proj1 (proj2 (proj2 (takes_facts lb o p Ht)))) in E.
    exact (step_spaced lb Hlb c st pos _ v rest i o p x (proj1 Hs) E Ht Hr).
  - pose proof Hg as (_ & _ & Hs & _). rewrite (proj1 Hs).
    assert (Hfree : free st i o) by (eapply Hfr; [reflexivity|apply Hs]).
    pose proof (head_glued c Hok st pos sp i o ch v Hf Hp Hg Hfree) as E. rewrite (proj1 (takes_facts lb o p Ht)) in E.
    exact (step_value lb Hlb c st pos _ rest i o p v x (proj1 Hs) E Ht Hr).
  - rewrite (proj1 Hs). assert (Hfree : free st i o) by (eapply Hfr; [reflexivity|apply Hs]).
    pose proof (head_bare c Hok st pos sp i o n Hf Hp Hs Hfree) as E.
    rewrite (step_flag lb c st pos _ rest i o x (proj1 Hs) E Hv).
    replace (halts (o_kind o)) with false by (destruct (o_kind o); try reflexivity; easy). reflexivity.
  - rewrite (proj1 Hs). assert (Hfree : free st i o) by (eapply Hfr; [reflexivity|apply Hs]).
    pose proof (head_no c Hok st pos i o n Hf Hp Hs Hk Hfree) as E.
    rewrite (loop_head lb c _ _ _ _ _ _ eq_refl E). cbn beta iota zeta. rewrite (proj1 Hs).
    unfold consume. rewrite Hk. cbn [bind halts]. change (streq (lit "false") (lit "true")) with false.
    now rewrite (store_given c st i o _ (proj1 Hs)).
  - specialize (Hpl k x eq_refl). subst k.
    assert (E : read_head c st pos a = Ok (HPos pos a)).
    { unfold read_head. rewrite (plain_not_dashes c a Ha), Hp, (not_option c a Ha).
      replace (length (positionals c) <=? pos) with false; [reflexivity|].
      symmetry. apply Nat.leb_gt. apply nth_error_Some. congruence. }
    rewrite (loop_head lb c _ _ _ _ _ _ eq_refl E). cbn beta iota zeta. rewrite Hk, (policy_reads lb Hlb p a x Hr). cbn [bind].
    now rewrite Nat.add_1_r.
  - specialize (Hal a eq_refl).
    assert (E : read_head c st pos a = Ok (HSkip (add_extra st a))).
    { unfold read_head. rewrite (plain_not_dashes c a Ha), Hp, (not_option c a Ha).
      apply Nat.leb_le in Hal. rewrite Hal, Hc. unfold add_extra. now rewrite Hp. }
    now rewrite (loop_head lb c _ _ _ _ _ _ eq_refl E).
Qed.

(** All of them. *)
Lemma written_loop ss : forall parts st pos rest,
  fits c st -> has_pass st = false -> Forall2 (written lb c) ss parts -> in_order c pos ss ->
  (forall i o vs, nth_error (options c) i = Some o -> (forall p, o_kind o <> KRepeat p) ->
     nth_error (vals st) i = Some vs -> length vs + length (gives i ss) <= 1) ->
  loop lb c (concat parts ++ rest) pos st = loop lb c rest (pos_after pos ss) (apply_all st ss)
  /\ fits c (apply_all st ss) /\ has_pass (apply_all st ss) = false.
Proof.
  induction ss as [|s ss IH]; intros parts st pos rest Hf Hp Hw Hio Honce.
  - destruct parts; [|inversion Hw]. cbn. unfold pos_after. cbn.
    rewrite Nat.add_0_r. auto.
  - destruct parts as [|part parts]; [inversion Hw|]. apply F2_cons in Hw as [Hw1 Hw2].
    cbn [concat]. rewrite <- app_assoc.
    assert (Hfree : forall i x o, s = Give i x -> nth_error (options c) i = Some o -> free st i o).
    { intros i x o -> Ho. destruct (o_kind o) eqn:Ek; try (right; assert (Hi : i < length (vals st))
        by (destruct Hf as [-> _]; apply nth_error_Some; congruence);
        destruct (nth_error (vals st) i) as [vs|] eqn:Ev; [|apply nth_error_Some in Hi; congruence];
        specialize (Honce i o vs Ho ltac:(intros q; rewrite Ek; discriminate) Ev);
        cbn [gives flat_map] in Honce; rewrite Nat.eqb_refl in Honce; cbn [app length] in Honce;
        destruct vs; [reflexivity|cbn in Honce; lia]).
      left. eauto. }
    rewrite (written_step st pos s part _ Hf Hp Hw1 Hfree).
    + destruct (IH parts (apply_setting st s) (pos_after pos [s]) rest) as (H1 & H2 & H3).
      * now apply fits_apply.
      * now rewrite pass_apply.
      * exact Hw2.
      * unfold pos_after. destruct s as [i x|k x|a]; cbn [placed flat_map app length]; rewrite ?Nat.add_0_r, ?Nat.add_1_r;
          cbn [in_order] in Hio; tauto.
      * intros i o vs Ho Hnr Hv. destruct s as [j x|k x|a]; cbn [apply_setting] in Hv; try (eapply (Honce i o vs Ho Hnr); exact Hv).
        destruct (nth_error (options c) j) as [oj|] eqn:Ej.
        -- unfold given in Hv. cbn [vals] in Hv. destruct (nth_error (vals st) j) as [vj|] eqn:Evj.
           ++ rewrite nth_error_upd in Hv. destruct (Nat.eqb_spec j i) as [->|Hji]; cbn [andb] in Hv.
              ** assert (i < length (vals st)) by (apply nth_error_Some; congruence).
                 replace (i <? length (vals st)) with true in Hv by (symmetry; now apply Nat.ltb_lt).
                 assert (oj = o) by congruence. subst oj.
                 specialize (Honce i o vj Ho Hnr Evj). cbn [gives flat_map] in Honce. rewrite Nat.eqb_refl in Honce.
                 cbn [app length] in Honce. unfold gives. destruct (o_kind o) eqn:Ek; try (injection Hv as <-; cbn [length]; lia).
                 now destruct (Hnr p).
              ** specialize (Honce i o vs Ho Hnr Hv). cbn [gives flat_map] in Honce. apply Nat.eqb_neq in Hji.
                 rewrite Hji in Honce. exact Honce.
           ++ specialize (Honce i o vs Ho Hnr Hv). cbn [gives flat_map] in Honce. rewrite app_length in Honce.
              unfold gives. lia.
        -- specialize (Honce i o vs Ho Hnr Hv). cbn [gives flat_map] in Honce. rewrite app_length in Honce. unfold gives. lia.
      * split; [|auto]. rewrite H1. unfold pos_after. f_equal. cbn [placed flat_map].
        rewrite app_nil_r, !app_length. unfold placed. lia.
    + intros k x ->. cbn [in_order] in Hio. tauto.
    + intros a ->. cbn [in_order] in Hio. tauto.
Qed.

Lemma apply_rest st ss : passthru (apply_all st ss) = passthru st /\ has_pass (apply_all st ss) = has_pass st
  /\ error (apply_all st ss) = error st /\ extra (apply_all st ss) = extra st ++ extras ss.
Proof.
  revert st; induction ss as [|s ss IH]; intros st; cbn [apply_all fold_left extras flat_map].
  - rewrite app_nil_r. auto.
  - fold (apply_all (apply_setting st s) ss). destruct (IH (apply_setting st s)) as (-> & -> & -> & ->).
    destruct s as [i x|k x|a]; cbn [apply_setting].
    + destruct (nth_error (options c) i); cbn; auto.
    + cbn. auto.
    + cbn. rewrite <- app_assoc. auto.
Qed.
Lemma apply_vals ss : forall st parts, fits c st -> Forall2 (written lb c) ss parts ->
  (forall i o vs, nth_error (options c) i = Some o -> (forall p, o_kind o <> KRepeat p) ->
     nth_error (vals st) i = Some vs -> length vs + length (gives i ss) <= 1) ->
  forall i vs, nth_error (vals st) i = Some vs -> nth_error (vals (apply_all st ss)) i = Some (vs ++ gives i ss).
Proof.
  induction ss as [|s ss IH]; intros st parts Hf Hw Honce i vs Hv.
  - cbn. now rewrite app_nil_r.
  - destruct parts as [|part parts]; [inversion Hw|]. apply F2_cons in Hw as [Hw1 Hw2].
    cbn [apply_all fold_left]. fold (apply_all (apply_setting st s) ss).
    assert (Hnext : forall i o vs, nth_error (options c) i = Some o -> (forall p, o_kind o <> KRepeat p) ->
              nth_error (vals (apply_setting st s)) i = Some vs -> length vs + length (gives i ss) <= 1).
    { clear i vs Hv. intros i o vs Ho Hnr Hv. destruct s as [j x|k x|a]; cbn [apply_setting] in Hv; try (eapply (Honce i o vs Ho Hnr); exact Hv).
        destruct (nth_error (options c) j) as [oj|] eqn:Ej.
        -- unfold given in Hv. cbn [vals] in Hv. destruct (nth_error (vals st) j) as [vj|] eqn:Evj.
           ++ rewrite nth_error_upd in Hv. destruct (Nat.eqb_spec j i) as [->|Hji]; cbn [andb] in Hv.
              ** assert (i < length (vals st)) by (apply nth_error_Some; congruence).
                 replace (i <? length (vals st)) with true in Hv by (symmetry; now apply Nat.ltb_lt).
                 assert (oj = o) by congruence. subst oj.
                 specialize (Honce i o vj Ho Hnr Evj). cbn [gives flat_map] in Honce. rewrite Nat.eqb_refl in Honce.
                 cbn [app length] in Honce. unfold gives. destruct (o_kind o) eqn:Ek; try (injection Hv as <-; cbn [length]; lia).
                 now destruct (Hnr p).
              ** specialize (Honce i o vs Ho Hnr Hv). cbn [gives flat_map] in Honce. apply Nat.eqb_neq in Hji.
                 rewrite Hji in Honce. exact Honce.
           ++ specialize (Honce i o vs Ho Hnr Hv). cbn [gives flat_map] in Honce. rewrite app_length in Honce.
              unfold gives. lia.
        -- specialize (Honce i o vs Ho Hnr Hv). cbn [gives flat_map] in Honce. rewrite app_length in Honce. unfold gives. lia. }
    destruct s as [j x|k x|a]; cbn [apply_setting] in *.
    + assert (Hj : exists oj, nth_error (options c) j = Some oj).
      { inversion Hw1; subst; match goal with Hs : spelled c _ j ?o _ |- _ => exists o; apply Hs
                                          | Hg : glued c _ j ?o _ _ |- _ => exists o; apply Hg end. }
      destruct Hj as [oj Hj]. rewrite Hj in *.
      assert (Hv' : nth_error (vals (given st j oj x)) i = Some (vs ++ (if j =? i then [x] else []))).
      { unfold given. cbn [vals]. destruct (nth_error (vals st) j) as [vj|] eqn:Evj.
        - rewrite nth_error_upd. destruct (Nat.eqb_spec j i) as [->|Hji]; cbn [andb].
          + assert (Hi : i < length (vals st)) by (apply nth_error_Some; congruence).
            apply Nat.ltb_lt in Hi. rewrite Hi. assert (vj = vs) by congruence. subst vj. f_equal.
            destruct (o_kind oj) eqn:Ek; try reflexivity;
              (assert (Hl : length vs + length (gives i (Give i x :: ss)) <= 1)
                by (apply (Honce i oj vs Hj ltac:(intros q; rewrite Ek; discriminate) Hv));
               cbn [gives flat_map] in Hl; rewrite Nat.eqb_refl in Hl; cbn [app length] in Hl;
               destruct vs; [reflexivity|cbn in Hl; lia]).
          + now rewrite app_nil_r.
        - destruct (Nat.eqb_spec j i) as [->|Hji]; [congruence|]. now rewrite app_nil_r. }
      rewrite (IH (given st j oj x) parts (fits_given c st j oj x Hf) Hw2 Hnext i _ Hv').
      rewrite <- app_assoc. reflexivity.
    + exact (IH (given_pos st k x) parts (fits_pos c st k x Hf) Hw2 Hnext i vs Hv).
    + exact (IH (add_extra st a) parts Hf Hw2 Hnext i vs Hv).
Qed.
Lemma upd_repeat {A} (l : list A) m x (d : A) : 0 < m -> upd (l ++ repeat d m) (length l) x = (l ++ [x]) ++ repeat d (m - 1).
Proof.
  intros Hm. induction l as [|y l IH]; cbn [app length upd].
  - destruct m; [lia|]. cbn [repeat upd]. now rewrite Nat.sub_succ, Nat.sub_0_r.
  - now rewrite IH.
Qed.
Lemma apply_pvals ss : forall st parts l m, Forall2 (written lb c) ss parts -> in_order c (length l) ss ->
  length l + m = length (positionals c) -> pvals st = map Some l ++ repeat None m ->
  length (placed ss) <= m /\
  pvals (apply_all st ss) = map Some (l ++ placed ss) ++ repeat None (m - length (placed ss)).
Proof.
  induction ss as [|s ss IH]; intros st parts l m Hw Hio Hl Hp.
  - cbn. rewrite app_nil_r, Nat.sub_0_r. split; [lia|exact Hp].
  - destruct parts as [|part parts]; [inversion Hw|]. apply F2_cons in Hw as [Hw1 Hw2].
    cbn [apply_all fold_left]. fold (apply_all (apply_setting st s) ss).
    destruct s as [j x|k x|a]; cbn [apply_setting in_order placed flat_map app] in *.
    + apply (IH _ parts l m Hw2 Hio Hl). destruct (nth_error (options c) j); exact Hp.
    + destruct Hio as [-> Hio]. inversion Hw1 as [| | | | | |k0 p0 a0 x0 Hk0 Hplain0 Hr0|]; subst.
      assert (Hm : 0 < m) by (assert (length l < length (positionals c)) by (apply nth_error_Some; congruence); lia).
      destruct (IH (given_pos st (length l) x) parts (l ++ [x]) (m - 1) Hw2) as [H1 H2].
      * rewrite app_length. cbn [length]. now rewrite Nat.add_1_r.
      * rewrite app_length. cbn [length]. lia.
      * cbn [given_pos pvals]. rewrite Hp. rewrite map_app. cbn [map].
        rewrite <- (map_length Some l). now apply upd_repeat.
      * cbn [length]. unfold placed in *. split; [lia|]. rewrite H2, <- app_assoc. cbn [app]. do 2 f_equal. lia.
    + destruct Hio as [_ Hio]. exact (IH (add_extra st a) parts l m Hw2 Hio Hl Hp).
Qed.

Lemma fits_init : fits c (init c).
Proof. split; cbn; apply map_length. Qed.
Lemma init_vals i vs : nth_error (vals (init c)) i = Some vs -> vs = [].
Proof.
  intros H. cbn [init vals] in H. rewrite nth_error_map in H. destruct (nth_error (options c) i); [|discriminate].
  cbn in H. congruence.
Qed.
Lemma map_none {A B} (l : list A) : map (fun _ => @None B) l = repeat None (length l).
Proof. induction l; cbn; congruence. Qed.

Theorem says_loop ss args rest : says lb c ss args ->
  exists st, loop lb c (args ++ rest) 0 (init c) = loop lb c rest (length (placed ss)) st
    /\ fits c st /\ holds c ss st /\ length (placed ss) <= length (positionals c).
Proof.
  intros (parts & Hw & -> & Hio & Hon).
  assert (Hvs : forall i o vs, nth_error (options c) i = Some o -> (forall p, o_kind o <> KRepeat p) ->
     nth_error (vals (init c)) i = Some vs -> length vs + length (gives i ss) <= 1).
  { intros i o vs Ho Hnr Hv. apply init_vals in Hv. subst vs. cbn. now apply (Hon i o). }
  destruct (written_loop ss parts (init c) 0 rest fits_init eq_refl Hw Hio Hvs) as (H1 & H2 & H3).
  exists (apply_all (init c) ss). split; [exact H1|]. split; [exact H2|].
  destruct (apply_pvals ss (init c) parts [] (length (positionals c)) Hw Hio eq_refl) as [Hpl Hpv];
    [cbn; apply map_none|].
  split; [|exact Hpl]. destruct (apply_rest (init c) ss) as (E1 & E2 & E3 & E4).
  split; [|split; [apply H2|split; [exact Hpv|]]].
  - intros i Hi. assert (Hv : nth_error (vals (init c)) i = Some []).
    { cbn [init vals]. rewrite nth_error_map. destruct (nth_error (options c) i) eqn:E; [reflexivity|].
      apply nth_error_None in E. lia. }
    exact (apply_vals ss (init c) parts fits_init Hw Hvs i [] Hv).
  - rewrite E1, E2, E3, E4. cbn. auto.
Qed.
End Says.

(** * reset *)
Section Reset.
Variable lb : Z.
Variable c : cfg.
(** [s] with the leftovers of [old] underneath. *)
Definition graft (old s : pstate) : pstate :=
  PState (vals s) (pvals s) (extra old ++ extra s) (passthru old ++ passthru s) (has_pass s)
    (match error s with Some e => Some e | None => error old end).
Definition graft_head (old : pstate) (h : head) : head :=
  match h with HSkip s => HSkip (graft old s) | h => h end.
Definition omap {A B} (f : A -> B) (o : outcome A) : outcome B :=
  match o with Ok a => Ok (f a) | Fault e => Fault e | Diverge => Diverge end.
Definition graft_l (old : pstate) (r : lres) : lres :=
  match r with LErr s => LErr (graft old s) | LDone p h s => LDone p h (graft old s) end.
Lemma read_head_graft old s pos a :
  read_head c (graft old s) pos a = omap (graft_head old) (read_head c s pos a).
Proof.
  unfold read_head. change (has_pass (graft old s)) with (has_pass s). change (vals (graft old s)) with (vals s).
  destruct (allow_pass c && streq a (lit "--")); [reflexivity|].
  destruct (has_pass s) eqn:E.
  { cbn [omap graft_head]. unfold graft. cbn. rewrite app_assoc. reflexivity. }
  destruct (is_option c a).
  - destruct (resolve c a) as [[[[i vp] sep]|]| |]; try reflexivity. cbn [bind].
    destruct (kind_at c i) as [k| |]; try reflexivity. cbn [bind].
    destruct (slot_get (vals s) i) as [vs| |]; try reflexivity. cbn [bind].
    destruct (negb (will_repeat k vs)); [reflexivity|]. destruct sep as [p|]; [|reflexivity].
    destruct (ptr_add a (p + 1)) as [v| |]; try reflexivity. cbn [bind]. destruct (must_omit k); reflexivity.
  - destruct (length (positionals c) <=? pos); [|reflexivity]. destruct (collect_extra c); [|reflexivity].
    cbn [omap graft_head]. unfold graft. cbn. rewrite app_assoc. reflexivity.
Qed.
Lemma store_graft old s i x : store c (graft old s) i x = graft old (store c s i x).
Proof. reflexivity. Qed.
Lemma loop_graft old args : forall pos s,
  loop lb c args pos (graft old s) = omap (graft_l old) (loop lb c args pos s).
Proof.
  assert (G : forall n args, length args <= n -> forall pos s,
            loop lb c args pos (graft old s) = omap (graft_l old) (loop lb c args pos s)).
  2: { intros pos s. now apply (G (length args)). }
  clear args. induction n as [|n IH]; intros args Hn pos s.
  { destruct args; [reflexivity|cbn in Hn; lia]. }
  destruct args as [|a rest]; [reflexivity|]. cbn [length] in Hn.
  cbn [loop]. rewrite read_head_graft. destruct (read_head c s pos a) as [h| |]; [|reflexivity..].
  cbn [omap bind]. destruct h as [e|s'|i vp|i v]; cbn [graft_head].
  - reflexivity.
  - apply IH. lia.
  - destruct (nth_error (options c) i) as [o|]; [|reflexivity]. destruct vp as [v|].
    + destruct (consume lb o (Some v)) as [[x|]| |]; cbn [bind]; try reflexivity.
      * destruct (halts (o_kind o)); [reflexivity|]. rewrite store_graft. apply IH. lia.
      * destruct (can_omit (o_kind o)); [|reflexivity]. destruct (halts (o_kind o)); [reflexivity|]. apply IH. lia.
    + destruct rest as [|next rest'].
      * destruct (can_omit (o_kind o)); [|reflexivity].
        destruct (consume lb o None) as [[x|]| |]; reflexivity.
      * destruct (must_omit (o_kind o)).
        -- destruct (consume lb o None) as [[x|]| |]; cbn [bind]; try reflexivity.
           ++ destruct (halts (o_kind o)); [reflexivity|]. rewrite store_graft. apply IH. cbn in *; lia.
           ++ destruct (can_omit (o_kind o)); [|reflexivity]. destruct (halts (o_kind o)); [reflexivity|]. apply IH. cbn in *; lia.
        -- destruct (consume lb o (Some next)) as [[x|]| |]; cbn [bind]; try reflexivity.
           ++ destruct (halts (o_kind o)); [reflexivity|]. rewrite store_graft. apply IH. cbn in *; lia.
           ++ destruct (can_omit (o_kind o)); [|reflexivity]. destruct (halts (o_kind o)); [reflexivity|]. apply IH. cbn in *; lia.
  - destruct (nth_error (positionals c) i) as [p|]; [|reflexivity].
    destruct (policy_consume lb p (Some v)) as [[x|]| |]; cbn [bind]; try reflexivity.
    change (store_pos (graft old s) i x) with (graft old (store_pos s i x)). apply IH. lia.
Qed.
Lemma help_graft old s : help_wanted c (graft old s) = help_wanted c s.
Proof. reflexivity. Qed.
Lemma parse_graft old s args :
  parse lb c (graft old s) args = omap (fun '(b, s) => (b, graft old s)) (parse lb c s args).
Proof.
  unfold parse. rewrite loop_graft. destruct (loop lb c args 0 s) as [[s'|p h s']| |]; try reflexivity.
  cbn [omap graft_l bind]. destruct (negb h && (p <? length (positionals c))); reflexivity.
Qed.
Lemma map_const_len {A B C} (f : B) (l : list A) (l' : list C) : length l = length l' ->
  map (fun _ => f) l = map (fun _ => f) l'.
Proof. revert l'; induction l; intros [|y l'] H; cbn in *; try discriminate; auto. f_equal. auto. Qed.
Lemma reset_graft st : fits c st -> has_pass st = false -> reset c st = graft st (init c).
Proof.
  intros [H1 H2] Hp. unfold reset, graft, init. cbn. rewrite !app_nil_r, Hp.
  rewrite (map_const_len [] (vals st) (options c) H1), (map_const_len None (pvals st) (positionals c) H2). reflexivity.
Qed.
End Reset.
