(** The scanner and the grammar agree. *)
From Coq Require Import String.
From Verif Require Import Base ArgModel ArgSpec ArgProofs1.
Local Open Scope nat_scope.
Local Open Scope list_scope.

Lemma attached_nonul inline body n v l : ~ In 0%N (l ++ body) -> attached inline body n v -> ~ In 0%N v.
Proof.
  intros Hz Ha Hv. apply Hz. apply in_or_app. right.
  destruct Ha as [(-> & _)|(_ & -> & _)]; apply in_or_app; right; now right.
Qed.

Section Agree.
Variable lb : Z.
Hypothesis Hlb : (0 < lb)%Z.
Variable c : cfg.
Hypothesis Hok : cfg_ok c.
Notation inl := (inline_values c).

Lemma by_long_iff i n : by_long c n = Some i <-> exists o, spelled c Long i o n.
Proof.
  split.
  - intros H. apply find_idx_some in H as (o & H1 & H2 & _). apply has_form_iff in H2. exists o. split; auto.
  - intros (o & H1 & H2). destruct (by_long c n) as [j|] eqn:E.
    + apply find_idx_some in E as (o' & H3 & H4 & _). apply has_form_iff in H4. f_equal.
      exact (ok_long c Hok j i o' o n H3 H1 H4 H2).
    + eapply find_idx_none in E; [|eapply nth_error_In; exact H1]. apply has_form_iff in H2. cbn in E. congruence.
Qed.
Lemma by_short_iff i n : by_short c n = Some i <-> exists o, spelled c Short i o n.
Proof.
  split.
  - intros H. apply find_idx_some in H as (o & H1 & H2 & _). apply has_form_iff in H2. exists o. split; auto.
  - intros (o & H1 & H2). destruct (by_short c n) as [j|] eqn:E.
    + apply find_idx_some in E as (o' & H3 & H4 & _). apply has_form_iff in H4. f_equal.
      exact (ok_short c Hok j i o' o n H3 H1 H4 H2).
    + eapply find_idx_none in E; [|eapply nth_error_In; exact H1]. apply has_form_iff in H2. cbn in E. congruence.
Qed.
Lemma by_short_none n : by_short c n = None <-> forall o, In o (options c) -> o_short o <> Some n.
Proof.
  unfold by_short. rewrite find_idx_none. split; intros H o Ho.
  - intros E. apply has_form_iff in E. rewrite H in E; [discriminate|exact Ho].
  - destruct (has_form (o_short o) n) eqn:E; [|reflexivity]. apply has_form_iff in E. now apply H in E.
Qed.
Lemma by_long_none n : by_long c n = None <-> forall o, In o (options c) -> o_long o <> Some n.
Proof.
  unfold by_long. rewrite find_idx_none. split; intros H o Ho.
  - intros E. apply has_form_iff in E. rewrite H in E; [discriminate|exact Ho].
  - destruct (has_form (o_long o) n) eqn:E; [|reflexivity]. apply has_form_iff in E. now apply H in E.
Qed.

Lemma spelled_name sp i o n : spelled c sp i o n ->
  n <> [] /\ chr n 0 <> c_dash /\ ~ In c_eq n /\ (inl = true -> ~ In c_colon n).
Proof.
  intros [H1 H2]. destruct (ok_name c Hok o n) as (A & B & C & D & _);
    [eapply nth_error_In; exact H1|destruct sp; tauto|auto].
Qed.
Lemma bare_split sp i o n : spelled c sp i o n -> split_body inl n = None.
Proof.
  intros H. apply spelled_name in H as (_ & _ & He & Hc). unfold split_body.
  apply strchr_none in He. rewrite He. destruct inl; [|reflexivity].
  specialize (Hc eq_refl). apply strchr_none in Hc. now rewrite Hc.
Qed.

Lemma free_iff st i o : fits c st -> nth_error (options c) i = Some o ->
  free st i o <-> exists vs, nth_error (vals st) i = Some vs /\ will_repeat (o_kind o) vs = true.
Proof.
  intros [Hf _] Ho. assert (Hi : i < length (vals st)).
  { rewrite Hf. apply nth_error_Some. congruence. }
  apply nth_error_Some in Hi. destruct (nth_error (vals st) i) as [vs|] eqn:E; [|congruence]. split.
  - intros [[p Hp]|Hx].
    + exists vs. rewrite Hp. auto.
    + assert (vs = []) by congruence. subst vs. exists []. split; auto. destruct (o_kind o); reflexivity.
  - intros (vs' & Hx & Hw). assert (vs' = vs) by congruence. subst vs'.
    destruct (o_kind o) eqn:Ek; try (left; eexists; exact Ek); right; rewrite E; destruct vs; try reflexivity; discriminate.
Qed.

Lemma kind_at_eq i o : nth_error (options c) i = Some o -> kind_at c i = Ok (o_kind o).
Proof. intros H. unfold kind_at. now rewrite H. Qed.

(** The part of read_head after the option has been found. *)
Definition after_resolve (st : pstate) (arg : str) (r : option (nat * option str * option nat)) : outcome head :=
  match r with
  | None => Ok (HErr (Unrecognized arg))
  | Some (i, value_ptr, sep) =>
      do k <- kind_at c i;
      do vs <- slot_get (vals st) i;
      if negb (will_repeat k vs) then Ok (HErr (AlreadySpecified i))
      else match sep with
           | Some p => do v <- ptr_add arg (p + 1);
                       if must_omit k then Ok (HErr (InvalidValue false i v)) else Ok (HOpt i (Some v))
           | None => Ok (HOpt i value_ptr)
           end
  end.
Lemma read_head_option st pos arg : has_pass st = false -> allow_pass c && streq arg (lit "--") = false ->
  is_option c arg = true ->
  read_head c st pos arg = do r <- resolve c arg; after_resolve st arg r.
Proof. intros H1 H2 H3. unfold read_head. rewrite H2, H1, H3. reflexivity. Qed.

Lemma after_resolve_ok st arg i o vp sep v : fits c st -> nth_error (options c) i = Some o -> free st i o ->
  sep_ok arg sep v ->
  after_resolve st arg (Some (i, vp, sep)) =
  Ok (match v with
      | Some v => if must_omit (o_kind o) then HErr (InvalidValue false i v) else HOpt i (Some v)
      | None => HOpt i vp
      end).
Proof.
  intros Hf Ho Hfr Hs. unfold after_resolve. rewrite (kind_at_eq i o Ho). cbn [bind].
  apply (free_iff st i o Hf Ho) in Hfr as (vs & Hv & Hw). unfold slot_get. rewrite Hv. cbn [bind]. rewrite Hw. cbn [negb].
  destruct sep as [p|], v as [w|]; cbn [sep_ok] in Hs; try tauto.
  destruct Hs as [Hs1 Hs2]. unfold ptr_add. apply Nat.leb_le in Hs1. rewrite Hs1. cbn [bind]. rewrite Hs2.
  destruct (must_omit (o_kind o)); reflexivity.
Qed.
Lemma after_resolve_used st arg i o vp sep : fits c st -> nth_error (options c) i = Some o -> ~ free st i o ->
  after_resolve st arg (Some (i, vp, sep)) = Ok (HErr (AlreadySpecified i)).
Proof.
  intros Hf Ho Hfr. unfold after_resolve. rewrite (kind_at_eq i o Ho). cbn [bind].
  pose proof Hf as [Hf1 _]. assert (Hi : i < length (vals st)) by (rewrite Hf1; apply nth_error_Some; congruence).
  unfold slot_get. destruct (nth_error (vals st) i) as [vs|] eqn:E; [|apply nth_error_Some in Hi; congruence].
  cbn [bind]. destruct (will_repeat (o_kind o) vs) eqn:Ew; [|reflexivity].
  exfalso. apply Hfr, (free_iff st i o Hf Ho). eauto.
Qed.

Lemma lead_long : lead Long = [c_dash; c_dash]. Proof. reflexivity. Qed.
Lemma lead_short : lead Short = [c_dash]. Proof. reflexivity. Qed.
Lemma lead_slash : lead Slash = [c_slash]. Proof. reflexivity. Qed.

Lemma lead_option sp i o n body : spelled c sp i o n -> is_option c (lead sp ++ body) = true.
Proof.
  intros [_ H]. unfold is_option. destruct sp; rewrite ?lead_long, ?lead_short, ?lead_slash; cbn [app chr nth].
  - now rewrite N.eqb_refl.
  - now rewrite N.eqb_refl.
  - destruct H as [-> _]. reflexivity.
Qed.
Lemma not_dashes sp x body : (sp <> Long -> x <> c_dash) -> allow_pass c && streq (lead sp ++ x :: body) (lit "--") = false.
Proof.
  intros H. destruct (streq (lead sp ++ x :: body) (lit "--")) eqn:E; [|apply andb_false_r].
  apply streq_iff in E. change (lit "--") with [c_dash; c_dash] in E.
  destruct sp; rewrite ?lead_long, ?lead_short, ?lead_slash in E; cbn [app] in E; try discriminate.
  injection E as E1 _. exfalso. apply H in E1; [assumption|discriminate].
Qed.

(** An argument whose name part is an option's name. *)
Lemma head_named st pos sp i o n body : fits c st -> has_pass st = false -> spelled c sp i o n ->
  name_of inl body = n -> 
  exists r, resolve c (lead sp ++ body) = Ok (Some (i, implied (o_kind o), r))
    /\ sep_ok (lead sp ++ body) r (val_of inl body)
    /\ read_head c st pos (lead sp ++ body) = after_resolve st (lead sp ++ body) (Some (i, implied (o_kind o), r)).
Proof.
  intros Hf Hp Hs Hn. pose proof (spelled_name _ _ _ _ Hs) as (Hne & Hd & _ & _).
  destruct (name_of_prefix inl body) as [r0 Er]. rewrite Hn in Er.
  destruct n as [|x n']; [easy|]. cbn [chr nth] in Hd.
  assert (Hbody : chr body 0 = x) by (rewrite Er; reflexivity).
  assert (Hres : exists r, resolve c (lead sp ++ body) = Ok (Some (i, implied (o_kind o), r))
                  /\ sep_ok (lead sp ++ body) r (val_of inl body)).
  { destruct sp.
    - rewrite lead_long. cbn [app]. destruct (resolve_long c body) as (sep & H1 & H2). exists sep. split; [|exact H1].
      rewrite H2, Hn. rewrite (proj2 (by_long_iff i _) (ex_intro _ o Hs)). rewrite (kind_at_eq i o (proj1 Hs)). reflexivity.
    - rewrite lead_short. cbn [app]. destruct (resolve_short c c_dash body) as (sep & H1 & H2);
        [discriminate|discriminate|congruence|]. exists sep. split; [|exact H1].
      rewrite H2, Hn. rewrite (proj2 (by_short_iff i _) (ex_intro _ o Hs)). rewrite (kind_at_eq i o (proj1 Hs)). reflexivity.
    - rewrite lead_slash. cbn [app]. destruct (resolve_short c c_slash body) as (sep & H1 & H2);
        [discriminate|discriminate|discriminate|]. exists sep. split; [|exact H1].
      assert (Hs' : spelled c Short i o (x :: n')) by (split; [apply Hs|apply Hs]).
      rewrite H2, Hn. rewrite (proj2 (by_short_iff i _) (ex_intro _ o Hs')). rewrite (kind_at_eq i o (proj1 Hs)). reflexivity. }
  destruct Hres as (r & H1 & H2). exists r. split; [exact H1|]. split; [exact H2|].
  rewrite read_head_option; auto.
  - now rewrite H1.
  - rewrite Er. apply not_dashes. auto.
  - eapply lead_option; exact Hs.
Qed.

Lemma head_attached st pos sp i o n v body : fits c st -> has_pass st = false -> spelled c sp i o n ->
  attached inl body n v -> free st i o ->
  read_head c st pos (lead sp ++ body) =
  Ok (if must_omit (o_kind o) then HErr (InvalidValue false i v) else HOpt i (Some v)).
Proof.
  intros Hf Hp Hs Ha Hfr. apply split_body_iff in Ha.
  destruct (head_named st pos sp i o n body Hf Hp Hs) as (r & _ & H2 & H3); [unfold name_of; now rewrite Ha|].
  rewrite H3. rewrite (after_resolve_ok st _ i o _ r _ Hf (proj1 Hs) Hfr H2). unfold val_of. now rewrite Ha.
Qed.
Lemma head_bare st pos sp i o n : fits c st -> has_pass st = false -> spelled c sp i o n -> free st i o ->
  read_head c st pos (lead sp ++ n) = Ok (HOpt i (implied (o_kind o))).
Proof.
  intros Hf Hp Hs Hfr. pose proof (bare_split _ _ _ _ Hs) as Hb.
  destruct (head_named st pos sp i o n n Hf Hp Hs) as (r & _ & H2 & H3); [unfold name_of; now rewrite Hb|].
  rewrite H3. rewrite (after_resolve_ok st _ i o _ r _ Hf (proj1 Hs) Hfr H2). unfold val_of. now rewrite Hb.
Qed.
Lemma head_used st pos sp i o n body : fits c st -> has_pass st = false -> spelled c sp i o n ->
  body = n \/ (exists v, attached inl body n v) -> ~ free st i o ->
  read_head c st pos (lead sp ++ body) = Ok (HErr (AlreadySpecified i)).
Proof.
  intros Hf Hp Hs Hb Hfr.
  destruct (head_named st pos sp i o n body Hf Hp Hs) as (r & _ & H2 & H3).
  { destruct Hb as [->|[v Ha]].
    - unfold name_of. now rewrite (bare_split _ _ _ _ Hs).
    - apply split_body_iff in Ha. unfold name_of. now rewrite Ha. }
  rewrite H3. apply (after_resolve_used st _ i o); auto. apply Hs.
Qed.

(** -nvalue *)
Lemma glued_name sp i o ch v : glued c sp i o ch v ->
  by_short c (name_of true (ch :: v)) = None /\ 1 < length (name_of true (ch :: v)) /\ ch <> c_dash
  /\ by_short c [ch] = Some i /\ sp <> Long.
Proof.
  intros (Hi & Hsp & Hs & Hv & Ha & Hn).
  pose proof (spelled_name _ _ _ _ Hs) as (_ & Hd & He & Hc). specialize (Hc Hi).
  assert (Hb : by_short c [ch] = Some i).
  { apply by_short_iff. exists o. destruct Hs as [H1 H2]. split; auto. destruct sp; [easy|exact H2|apply H2]. }
  assert (Hb2 : by_short c (name_of true (ch :: v)) = None).
  { apply by_short_none. unfold name_of. destruct (split_body true (ch :: v)) as [[n w]|] eqn:E.
    - apply split_body_iff in E. exact (Ha n w E).
    - apply Hn. intros n w Hx. apply split_body_iff in Hx. congruence. }
  split; [exact Hb2|]. split; [|auto].
  destruct (name_of_prefix true (ch :: v)) as [r Er]. 
  destruct (name_of true (ch :: v)) as [|x [|y n]] eqn:En.
  - exfalso. unfold name_of in En. destruct (split_body true (ch :: v)) as [[n w]|] eqn:E; [|discriminate].
    subst n. apply split_body_iff in E. destruct E as [(E & _)|(_ & E & _)]; cbn in E; injection E as E1 E2.
    + apply He. now left.
    + apply Hc. now left.
  - exfalso. cbn in Er. injection Er as E1 E2. subst x. congruence.
  - cbn. lia.
Qed.
Lemma head_glued st pos sp i o ch v : fits c st -> has_pass st = false -> glued c sp i o ch v -> free st i o ->
  read_head c st pos (lead sp ++ ch :: v) =
  Ok (if must_omit (o_kind o) then HErr (InvalidValue false i v) else HOpt i (Some v)).
Proof.
  intros Hf Hp Hg Hfr. pose proof (glued_name _ _ _ _ _ Hg) as (Hb & Hl & Hd & Hb1 & Hsp).
  destruct Hg as (Hi & _ & Hs & Hv & _ & _).
  assert (Ho : nth_error (options c) i = Some o) by apply Hs.
  rewrite read_head_option; auto.
  - assert (Hr : exists p, lead sp = [p] /\ p <> c_eq /\ p <> c_colon).
    { destruct sp; [easy|exists c_dash|exists c_slash]; repeat split; discriminate. }
    destruct Hr as (p & -> & Hp1 & Hp2). cbn [app].
    destruct (resolve_short c p (ch :: v) Hp1 Hp2) as (sep & _ & H2); [intros _; exact Hd|].
    rewrite H2, Hi. rewrite Hb. change (chr (ch :: v) 0) with ch. rewrite Hb1, (kind_at_eq i o Ho). cbn [bind].
    replace (1 <? length (name_of true (ch :: v))) with true by (symmetry; now apply Nat.ltb_lt).
    rewrite (after_resolve_ok st _ i o _ (Some 1) (Some v) Hf Ho Hfr); [reflexivity|].
    cbn. split; [lia|reflexivity].
  - apply not_dashes. auto.
  - eapply lead_option; exact Hs.
Qed.

(** --no-name *)
Lemma head_no st pos i o n : fits c st -> has_pass st = false -> spelled c Long i o n -> o_kind o = KEnable ->
  free st i o ->
  read_head c st pos (lead Long ++ no_prefix ++ n) = Ok (HOpt i (Some (lit "false"))).
Proof.
  intros Hf Hp Hs Hk Hfr. pose proof (bare_split _ _ _ _ Hs) as Hb.
  destruct (name_of_no inl n) as (m & E1 & E2 & E3). unfold name_of in E2. rewrite Hb in E2. subst m.
  unfold val_of at 2 in E3. rewrite Hb in E3.
  rewrite read_head_option; auto.
  - rewrite lead_long. cbn [app]. destruct (resolve_long c (no_prefix ++ n)) as (sep & H1 & H2). rewrite E3 in H1.
    rewrite H2, E1.
    assert (En : by_long c (no_prefix ++ n) = None).
    { apply by_long_none. intros o' Ho'. apply (ok_no c Hok o o' n); auto; [|apply Hs].
      eapply nth_error_In; apply Hs. }
    rewrite En. assert (Es : strncmp_eq 5 (c_dash :: c_dash :: no_prefix ++ n) (lit "--no-") = true)
      by (apply strncmp_no; eauto). rewrite Es. rewrite no_prefix_val. cbn [app skipn]. unfold no_case.
    rewrite (proj2 (by_long_iff i n) (ex_intro _ o Hs)). rewrite (kind_at_eq i o (proj1 Hs)), Hk. cbn [bind prefix_no].
    rewrite no_prefix_val in H1. rewrite (after_resolve_ok st _ i o _ sep None Hf (proj1 Hs) Hfr H1). reflexivity.
  - rewrite no_prefix_val. apply not_dashes. intros H. now destruct H.
Qed.

(** ** Storing *)
Lemma store_given st i o x : nth_error (options c) i = Some o -> store c st i x = given st i o x.
Proof. intros H. unfold store, given. rewrite H. destruct (nth_error (vals st) i); reflexivity. Qed.
Lemma fits_given st i o x : fits c st -> fits c (given st i o x).
Proof.
  intros [H1 H2]. split; [|exact H2]. unfold given. cbn [vals].
  destruct (nth_error (vals st) i); [now rewrite upd_length|exact H1].
Qed.
Lemma fits_pos st i x : fits c st -> fits c (given_pos st i x).
Proof. intros [H1 H2]. split; [exact H1|]. cbn. now rewrite upd_length. Qed.
Lemma fits_extra st a : fits c st -> fits c (add_extra st a). Proof. auto. Qed.
Lemma fits_pass st a : fits c st -> fits c (add_pass st a). Proof. auto. Qed.
Lemma fits_start st : fits c st -> fits c (start_pass st). Proof. auto. Qed.

Lemma takes_facts o p : takes (o_kind o) = Some p ->
  must_omit (o_kind o) = false /\ halts (o_kind o) = false /\ implied (o_kind o) = None
  /\ forall a, consume lb o a = policy_consume lb p a.
Proof. unfold consume. destruct (o_kind o); cbn; intros [= ->]; auto. Qed.
Lemma bool_reject v : (forall x, ~ reads_as lb PBool v x) -> policy_consume lb PBool (Some v) = Ok None.
Proof.
  intros H. cbn [policy_consume]. destruct (casecmp_eq v (lit "true")) eqn:E1.
  - apply casecmp_iff in E1. exfalso. eapply H. now apply reads_true.
  - destruct (casecmp_eq v (lit "false")) eqn:E2; [|reflexivity].
    apply casecmp_iff in E2. exfalso. eapply H. now apply reads_false.
Qed.
Lemma option_like_iff a : is_option c a = true <-> option_like c a.
Proof. unfold is_option, option_like. rewrite orb_true_iff, andb_true_iff, !N.eqb_eq. tauto. Qed.
Lemma not_option a : ~ option_like c a -> is_option c a = false.
Proof. intros H. destruct (is_option c a) eqn:E; [|reflexivity]. now apply option_like_iff in E. Qed.
Lemma plain_not_dashes a : ~ option_like c a -> allow_pass c && streq a (lit "--") = false.
Proof.
  intros H. destruct (streq a (lit "--")) eqn:E; [|apply andb_false_r]. apply streq_iff in E. subst a.
  exfalso. apply H. left. reflexivity.
Qed.

Lemma loop_head args pos st arg rest h : args = arg :: rest -> read_head c st pos arg = Ok h ->
  loop lb c args pos st =
    match h with
    | HErr e => Ok (LErr (set_error st e))
    | HSkip st => loop lb c rest pos st
    | HPos i v =>
        match nth_error (positionals c) i with
        | None => Fault OutOfBounds
        | Some p =>
            do r <- policy_consume lb p (Some v);
            match r with
            | None => Ok (LErr (set_error st (InvalidValue true i v)))
            | Some x => loop lb c rest (S pos) (store_pos st i x)
            end
        end
    | HOpt i value_ptr =>
        match nth_error (options c) i with
        | None => Fault OutOfBounds
        | Some o =>
            let k := o_kind o in
            match value_ptr, rest with
            | Some v, _ =>
                do r <- consume lb o (Some v);
                match r with
                | Some x => if halts k then Ok (LDone pos true (store c st i x))
                            else loop lb c rest pos (store c st i x)
                | None => if can_omit k
                          then if halts k then Ok (LDone pos true st) else loop lb c rest pos st
                          else Ok (LErr (set_error st (InvalidValue false i v)))
                end
            | None, [] =>
                if can_omit k then
                  do r <- consume lb o None;
                  match r with
                  | Some x => Ok (LDone pos (halts k) (store c st i x))
                  | None => Ok (LDone pos (halts k) st)
                  end
                else Ok (LErr (set_error st (NeedsValue i)))
            | None, next :: rest' =>
                if must_omit k then
                  do r <- consume lb o None;
                  match r with
                  | Some x => if halts k then Ok (LDone pos true (store c st i x))
                              else loop lb c rest pos (store c st i x)
                  | None => if can_omit k
                            then if halts k then Ok (LDone pos true st) else loop lb c rest pos st
                            else Fault NullDeref
                  end
                else
                  do r <- consume lb o (Some next);
                  match r with
                  | Some x => if halts k then Ok (LDone pos true (store c st i x))
                              else loop lb c rest' pos (store c st i x)
                  | None => if can_omit k
                            then if halts k then Ok (LDone pos true st) else loop lb c rest pos st
                            else Ok (LErr (set_error st (InvalidValue false i next)))
                  end
            end
        end
    end.
Proof. intros -> H. cbn [loop]. rewrite H. cbn [bind]. destruct h; reflexivity. Qed.

(** ** Step lemmas: one per way of writing things. *)
Lemma step_value st pos arg rest i o p v x : nth_error (options c) i = Some o ->
  read_head c st pos arg = Ok (HOpt i (Some v)) ->
  takes (o_kind o) = Some p -> reads_as lb p v x ->
  loop lb c (arg :: rest) pos st = loop lb c rest pos (given st i o x).
Proof.
  intros Ho Hh Ht Hr. rewrite (loop_head _ _ _ _ _ _ eq_refl Hh). cbn beta iota zeta. rewrite Ho.
  apply takes_facts in Ht as (H1 & H2 & H3 & H4). rewrite H4, (policy_reads lb Hlb p v x Hr). cbn [bind].
  now rewrite H2, (store_given st i o x Ho).
Qed.
Lemma step_value_ignored st pos arg rest i o v : nth_error (options c) i = Some o ->
  read_head c st pos arg = Ok (HOpt i (Some v)) ->
  o_kind o = KOption PBool -> (forall x, ~ reads_as lb PBool v x) ->
  loop lb c (arg :: rest) pos st = loop lb c rest pos st.
Proof.
  intros Ho Hh Hk Hr. rewrite (loop_head _ _ _ _ _ _ eq_refl Hh). cbn beta iota zeta. rewrite Ho.
  unfold consume. rewrite Hk, (bool_reject v Hr). reflexivity.
Qed.
Lemma step_spaced st pos arg v rest i o p x : nth_error (options c) i = Some o ->
  read_head c st pos arg = Ok (HOpt i None) ->
  takes (o_kind o) = Some p -> reads_as lb p v x ->
  loop lb c (arg :: v :: rest) pos st = loop lb c rest pos (given st i o x).
Proof.
  intros Ho Hh Ht Hr. rewrite (loop_head _ _ _ _ _ _ eq_refl Hh). cbn beta iota zeta. rewrite Ho.
  apply takes_facts in Ht as (H1 & H2 & H3 & H4). rewrite H1, H4, (policy_reads lb Hlb p v x Hr). cbn [bind].
  now rewrite H2, (store_given st i o x Ho).
Qed.
Lemma step_flag st pos arg rest i o x : nth_error (options c) i = Some o ->
  read_head c st pos arg = Ok (HOpt i (implied (o_kind o))) -> flag_value o = Some x ->
  loop lb c (arg :: rest) pos st =
  if halts (o_kind o) then Ok (LDone pos true (given st i o x)) else loop lb c rest pos (given st i o x).
Proof.
  intros Ho Hh Hv. rewrite (loop_head _ _ _ _ _ _ eq_refl Hh). cbn beta iota zeta. rewrite Ho.
  unfold flag_value in Hv. unfold consume.
  destruct (o_kind o); cbn [implied prefix_no can_omit must_omit halts bind]; try discriminate.
  - rewrite streq_refl. cbn [bind]. assert (x = VBool true) by congruence. subst x.
    now rewrite (store_given st i o _ Ho).
  - injection Hv as <-. rewrite (store_given st i o _ Ho). destruct rest; reflexivity.
  - injection Hv as <-. rewrite (store_given st i o _ Ho). destruct rest; reflexivity.
Qed.

Theorem reads_loop st pos args st' pos' h : fits c st -> reads lb c st pos args st' pos' h ->
  loop lb c args pos st = Ok (LDone pos' h st') /\ fits c st'.
Proof.
  intros Hf H. revert Hf.
  induction H as
    [st pos
    |st pos sp i o n v body p x rest st' pos' h Hp Hs Ha Ht Hfr Hr H IH
    |st pos sp i o ch v p x rest st' pos' h Hp Hg Ht Hfr Hr H IH
    |st pos sp i o n v p x rest st' pos' h Hp Hs Ht Hfr Hr H IH
    |st pos sp i o n Hp Hs Hk Hfr
    |st pos sp i o n next rest st' pos' h Hp Hs Hk Hfr Hr H IH
    |st pos sp i o n v body rest st' pos' h Hp Hs Ha Hk Hfr Hr H IH
    |st pos sp i o ch v rest st' pos' h Hp Hg Hk Hfr Hr H IH
    |st pos sp i o n x rest st' pos' h Hp Hs Hfr Hv Hk H IH
    |st pos i o n rest st' pos' h Hp Hs Hfr Hk H IH
    |st pos sp i o n x rest Hp Hs Hfr Hk Hv
    |st pos a p x rest st' pos' h Hp Ha Hpos Hr H IH
    |st pos a rest st' pos' h Hp Ha Hpos Hc H IH
    |st pos rest st' pos' h Hap H IH
    |st pos a rest st' pos' h Hp Ha H IH]; intros Hf.
  - split; auto.
  - pose proof (head_attached st pos sp i o n v body Hf Hp Hs Ha Hfr) as E.
    rewrite (proj1 (takes_facts o p Ht)) in E. rewrite (step_value st pos _ rest i o p v x (proj1 Hs) E Ht Hr).
    apply IH. now apply fits_given.
  - pose proof (head_glued st pos sp i o ch v Hf Hp Hg Hfr) as E. destruct Hg as (_ & _ & Hs & _).
    rewrite (proj1 (takes_facts o p Ht)) in E. rewrite (step_value st pos _ rest i o p v x (proj1 Hs) E Ht Hr).
    apply IH. now apply fits_given.
  - pose proof (head_bare st pos sp i o n Hf Hp Hs Hfr) as E.
    rewrite (proj1 (proj2 (proj2 (takes_facts o p Ht)))) in E. rewrite (step_spaced st pos _ v rest i o p x (proj1 Hs) E Ht Hr).
    apply IH. now apply fits_given.
  - pose proof (head_bare st pos sp i o n Hf Hp Hs Hfr) as E. rewrite Hk in E. cbn [implied prefix_no] in E.
    rewrite (loop_head _ _ _ _ _ _ eq_refl E). cbn beta iota zeta. rewrite (proj1 Hs).
    unfold consume. rewrite Hk. cbn [can_omit policy_consume bind halts]. rewrite (store_given st i o _ (proj1 Hs)).
    split; [reflexivity|now apply fits_given].
  - pose proof (head_bare st pos sp i o n Hf Hp Hs Hfr) as E. rewrite Hk in E. cbn [implied prefix_no] in E.
    rewrite (loop_head _ _ _ _ _ _ eq_refl E). cbn beta iota zeta. rewrite (proj1 Hs).
    unfold consume. rewrite Hk, (bool_reject next Hr). cbn [must_omit can_omit halts bind]. now apply IH.
  - pose proof (head_attached st pos sp i o n v body Hf Hp Hs Ha Hfr) as E. rewrite Hk in E. cbn [must_omit] in E.
    rewrite (step_value_ignored st pos _ rest i o v (proj1 Hs) E Hk Hr). now apply IH.
  - pose proof (head_glued st pos sp i o ch v Hf Hp Hg Hfr) as E. destruct Hg as (_ & _ & Hs & _).
    rewrite Hk in E. cbn [must_omit] in E.
    rewrite (step_value_ignored st pos _ rest i o v (proj1 Hs) E Hk Hr). now apply IH.
  - pose proof (head_bare st pos sp i o n Hf Hp Hs Hfr) as E.
    rewrite (step_flag st pos _ rest i o x (proj1 Hs) E Hv).
    replace (halts (o_kind o)) with false by (destruct (o_kind o); try reflexivity; easy).
    apply IH. now apply fits_given.
  - pose proof (head_no st pos i o n Hf Hp Hs Hk Hfr) as E.
    rewrite (loop_head _ _ _ _ _ _ eq_refl E). cbn beta iota zeta. rewrite (proj1 Hs).
    unfold consume. rewrite Hk. cbn [bind halts]. change (streq (lit "false") (lit "true")) with false.
    rewrite (store_given st i o _ (proj1 Hs)). apply IH. now apply fits_given.
  - pose proof (head_bare st pos sp i o n Hf Hp Hs Hfr) as E.
    rewrite (step_flag st pos _ rest i o x (proj1 Hs) E Hv), Hk. cbn [halts]. split; [reflexivity|now apply fits_given].
  - assert (E : read_head c st pos a = Ok (HPos pos a)).
    { unfold read_head. rewrite (plain_not_dashes a Ha), Hp, (not_option a Ha).
      replace (length (positionals c) <=? pos) with false; [reflexivity|].
      symmetry. apply Nat.leb_gt. apply nth_error_Some. congruence. }
    rewrite (loop_head _ _ _ _ _ _ eq_refl E). cbn beta iota zeta. rewrite Hpos, (policy_reads lb Hlb p a x Hr). cbn [bind].
    apply IH. now apply fits_pos.
  - assert (E : read_head c st pos a = Ok (HSkip (add_extra st a))).
    { unfold read_head. rewrite (plain_not_dashes a Ha), Hp, (not_option a Ha).
      apply Nat.leb_le in Hpos. rewrite Hpos, Hc. unfold add_extra. now rewrite Hp. }
    rewrite (loop_head _ _ _ _ _ _ eq_refl E). now apply IH.
  - assert (E : read_head c st pos (lit "--") = Ok (HSkip (start_pass st))).
    { unfold read_head. rewrite Hap, streq_refl. reflexivity. }
    rewrite (loop_head _ _ _ _ _ _ eq_refl E). now apply IH.
  - assert (E : read_head c st pos a = Ok (HSkip (add_pass st a))).
    { unfold read_head. replace (allow_pass c && streq a (lit "--")) with false.
      - rewrite Hp. unfold add_pass. now rewrite Hp.
      - symmetry. destruct (allow_pass c); [|reflexivity]. cbn [andb].
        destruct (streq a (lit "--")) eqn:E; [|reflexivity]. apply streq_iff in E. now apply Ha in E. }
    rewrite (loop_head _ _ _ _ _ _ eq_refl E). now apply IH.
Qed.

(** ** The other direction: what every option-like argument can be *)
Inductive hclass (st : pstate) (arg : str) : outcome head -> Prop :=
| hc_err e : (e = Unrecognized arg \/ refers c arg \/ stuck c arg \/ exists i o n, negates c arg i o n /\ o_kind o = KEnable) ->
    hclass st arg (Ok (HErr e))
| hc_fault b : arg = lead Long ++ no_prefix ++ b -> by_long c (name_of inl b) = None ->
    by_long c (no_prefix ++ name_of inl b) = None -> hclass st arg (Fault NullDeref)
| hc_attached sp i o n v body : spelled c sp i o n -> attached inl body n v -> free st i o ->
    must_omit (o_kind o) = false -> arg = lead sp ++ body -> hclass st arg (Ok (HOpt i (Some v)))
| hc_glued sp i o ch v : glued c sp i o ch v -> free st i o ->
    must_omit (o_kind o) = false -> arg = lead sp ++ ch :: v -> hclass st arg (Ok (HOpt i (Some v)))
| hc_bare sp i o n : spelled c sp i o n -> free st i o -> arg = lead sp ++ n ->
    hclass st arg (Ok (HOpt i (implied (o_kind o))))
| hc_no i o n : spelled c Long i o n -> free st i o -> o_kind o = KEnable -> arg = lead Long ++ no_prefix ++ n ->
    hclass st arg (Ok (HOpt i (Some (lit "false")))).

Lemma free_dec st i o : fits c st -> nth_error (options c) i = Some o -> free st i o \/ ~ free st i o.
Proof.
  intros Hf Ho. rewrite (free_iff st i o Hf Ho). destruct Hf as [Hf _].
  destruct (nth_error (vals st) i) as [vs|] eqn:E.
  - destruct (will_repeat (o_kind o) vs) eqn:Ew; [left; eauto|]. right. intros (vs' & H1 & H2). congruence.
  - right. intros (vs' & H1 & H2). congruence.
Qed.
Lemma class_named st sp i o body pos : fits c st -> has_pass st = false -> spelled c sp i o (name_of inl body) ->
  hclass st (lead sp ++ body) (read_head c st pos (lead sp ++ body)).
Proof.
  intros Hf Hp Hs. destruct (head_named st pos sp i o _ body Hf Hp Hs eq_refl) as (r & _ & H2 & ->).
  assert (Href : refers c (lead sp ++ body)).
  { exists sp, i, o, (name_of inl body), body. split; [reflexivity|]. split; [exact Hs|].
    unfold name_of. destruct (split_body inl body) as [[n v]|] eqn:E; [|auto]. right. exists v. now apply split_body_iff. }
  destruct (free_dec st i o Hf (proj1 Hs)) as [Hfr|Hfr].
  - rewrite (after_resolve_ok st _ i o _ r _ Hf (proj1 Hs) Hfr H2). unfold val_of, name_of in *.
    destruct (split_body inl body) as [[n v]|] eqn:E.
    + destruct (must_omit (o_kind o)) eqn:Em; [constructor; auto|].
      apply split_body_iff in E. eapply hc_attached; eauto.
    + eapply hc_bare; eauto.
  - rewrite (after_resolve_used st _ i o _ r Hf (proj1 Hs) Hfr). constructor; auto.
Qed.

Lemma head_class st pos arg : fits c st -> has_pass st = false -> allow_pass c && streq arg (lit "--") = false ->
  option_like c arg -> hclass st arg (read_head c st pos arg).
Proof.
  intros Hf Hp Hd Ho. pose proof Ho as Hopt. apply option_like_iff in Hopt.
  destruct arg as [|x t]; [destruct Ho as [H|[_ H]]; discriminate|]. cbn [chr nth] in Ho.
  assert (Hshort : forall sp, sp <> Long -> lead sp = [x] -> x <> c_eq -> x <> c_colon -> (x = c_dash -> chr t 0 <> c_dash) ->
            (forall i o n, spelled c Short i o n -> spelled c sp i o n) ->
            hclass st (x :: t) (read_head c st pos (x :: t))).
  { intros sp Hsp Hl He Hc Hdd Hcv.
    destruct (by_short c (name_of inl t)) as [i|] eqn:Eb.
    - apply by_short_iff in Eb as (o & Hs). apply Hcv in Hs.
      replace (x :: t) with (lead sp ++ t) by (rewrite Hl; reflexivity). eapply class_named; eauto.
    - rewrite read_head_option by auto. destruct (resolve_short c x t He Hc Hdd) as (sep & H1 & ->). rewrite Eb.
      destruct inl eqn:Ei; [|constructor; auto].
      destruct (by_short c [chr t 0]) as [i|] eqn:Eb1; [|constructor; auto].
      apply by_short_iff in Eb1 as (o & Hs). rewrite (kind_at_eq i o (proj1 Hs)). cbn [bind].
      assert (Hn0 : chr t 0 <> 0%N).
      { destruct Hs as [Hs1 Hs2]. destruct (ok_name c Hok o [chr t 0]) as (_ & _ & _ & _ & H0);
          [eapply nth_error_In; exact Hs1|auto|]. intros E. apply H0. rewrite E. now left. }
      destruct t as [|ch v]; [now destruct Hn0|]. cbn [chr nth] in Hs.
      pose proof (spelled_name _ _ _ _ Hs) as (_ & _ & Hne & Hnc). rewrite Ei in Hnc. specialize (Hnc eq_refl).
      assert (Hlen : 1 < length (name_of true (ch :: v))).
      { destruct (name_of_prefix true (ch :: v)) as [r Er].
        destruct (name_of true (ch :: v)) as [|y [|z n]] eqn:En.
        - exfalso. unfold name_of in En. destruct (split_body true (ch :: v)) as [[n w]|] eqn:E; [|discriminate].
          subst n. apply split_body_iff in E. destruct E as [(E & _)|(_ & E & _)]; cbn in E; injection E as E1 E2.
          + apply Hne. now left.
          + apply Hnc. now left.
        - exfalso. cbn in Er. injection Er as E1 E2. subst y.
          assert (Hx : by_short c [ch] = Some i) by (apply by_short_iff; eauto). congruence.
        - cbn. lia. }
      pose proof Hlen as Hlen'. apply Nat.ltb_lt in Hlen'. rewrite Hlen'.
      assert (Hg : glued c sp i o ch v).
      { split; [exact Ei|]. split; [exact Hsp|]. split; [apply Hcv; exact Hs|]. split; [|split].
        + destruct (name_of_prefix true (ch :: v)) as [r Er]. apply (f_equal (@length N)) in Er. rewrite app_length in Er.
          intros ->. cbn in Er. lia.
        + intros n w Ha. apply split_body_iff in Ha. unfold name_of in Eb. rewrite Ha in Eb. now apply by_short_none.
        + intros Ha. apply split_body_none in Ha. unfold name_of in Eb. rewrite Ha in Eb. now apply by_short_none. }
      assert (Hst : stuck c (x :: ch :: v)) by (exists sp, i, o, ch, v; split; [rewrite Hl; reflexivity|exact Hg]).
      destruct (free_dec st i o Hf (proj1 Hs)) as [Hfr|Hfr];
        [|rewrite (after_resolve_used st _ i o _ _ Hf (proj1 Hs) Hfr); constructor; auto].
      rewrite (after_resolve_ok st _ i o _ (Some 1) (Some v) Hf (proj1 Hs) Hfr) by (cbn; split; [lia|reflexivity]).
      destruct (must_omit (o_kind o)) eqn:Em; [constructor; auto|].
      apply (hc_glued st (x :: ch :: v) sp i o ch v); auto. rewrite Hl; reflexivity. }
  destruct (N.eq_dec x c_dash) as [->|Hx].
  - destruct (N.eq_dec (chr t 0) c_dash) as [Ht|Ht].
    + destruct t as [|y body]; [discriminate|]. cbn [chr nth] in Ht. subst y.
      destruct (by_long c (name_of inl body)) as [i|] eqn:Eb.
      * apply by_long_iff in Eb as (o & Hs).
        change (c_dash :: c_dash :: body) with (lead Long ++ body). eapply class_named; eauto.
      * rewrite read_head_option by auto. destruct (resolve_long c body) as (sep & H1 & ->). rewrite Eb.
        destruct (strncmp_eq 5 (c_dash :: c_dash :: body) (lit "--no-")) eqn:En; [|constructor; auto].
        apply strncmp_no in En as [b ->]. destruct (name_of_no inl b) as (m & E1 & E2 & E3).
        rewrite E3 in H1. rewrite E1 in *. rewrite no_prefix_val in *. cbn [app skipn] in *. unfold no_case.
        destruct (by_long c m) as [i|] eqn:Eb1.
        -- apply by_long_iff in Eb1 as (o & Hs). rewrite (kind_at_eq i o (proj1 Hs)). cbn [bind].
           destruct (o_kind o) eqn:Ek; cbn [prefix_no]; try (constructor; auto; fail).
           assert (Hng : negates c (c_dash :: c_dash :: 110%N :: 111%N :: 45%N :: b) i o m).
           { split; [exact Hs|]. exists b. split; [reflexivity|]. rewrite E2. unfold name_of.
             destruct (split_body inl b) as [[n v]|] eqn:E; [|auto]. right. exists v. now apply split_body_iff. }
           destruct (free_dec st i o Hf (proj1 Hs)) as [Hfr|Hfr]; cbn [bind];
             [|rewrite (after_resolve_used st _ i o _ _ Hf (proj1 Hs) Hfr); constructor; eauto 8].
           rewrite (after_resolve_ok st _ i o _ sep _ Hf (proj1 Hs) Hfr H1), Ek. cbn [must_omit].
           unfold val_of, name_of in *. destruct (split_body inl b) as [[n v]|] eqn:E; [constructor; eauto 8|].
           subst m. apply (hc_no st _ i o b); auto.
        -- subst m. apply (hc_fault st _ b); auto.
    + apply (Hshort Short); auto; discriminate.
  - destruct Ho as [Ho|[Hsl Ho]]; [contradiction|]. change (x = c_slash) in Ho. subst x.
    apply (Hshort Slash); auto; try discriminate. intros i o n [H1 H2]. split; auto.
Qed.

Theorem loop_reads n : forall args st pos st' pos' h, length args <= n -> fits c st ->
  Forall (fun a => ~ In 0%N a) args ->
  loop lb c args pos st = Ok (LDone pos' h st') -> reads lb c st pos args st' pos' h.
Proof.
  induction n as [|n IH]; intros args st pos st' pos' h Hn Hf Hz H.
  { destruct args; [|cbn in Hn; lia]. cbn in H. injection H as <- <- <-. constructor. }
  destruct args as [|arg rest]; [cbn in H; injection H as <- <- <-; constructor|].
  apply Forall_cons_iff in Hz as [Hz0 Hz]. cbn [length] in Hn.
  destruct (allow_pass c && streq arg (lit "--")) eqn:Ed.
  { apply andb_true_iff in Ed as [Ed1 Ed2]. pose proof Ed2 as Ed3. apply streq_iff in Ed3. subst arg.
    assert (E : read_head c st pos (lit "--") = Ok (HSkip (start_pass st)))
      by (unfold read_head; now rewrite Ed1, Ed2).
    rewrite (loop_head _ _ _ _ _ _ eq_refl E) in H. apply r_dashes; auto. apply IH; auto. lia. }
  destruct (has_pass st) eqn:Ep.
  { assert (E : read_head c st pos arg = Ok (HSkip (add_pass st arg)))
      by (unfold read_head; rewrite Ed, Ep; unfold add_pass; now rewrite Ep).
    rewrite (loop_head _ _ _ _ _ _ eq_refl E) in H. apply r_passed; auto.
    - intros Ha ->. rewrite Ha, streq_refl in Ed. discriminate.
    - apply IH; auto. lia. }
  destruct (is_option c arg) eqn:Eo.
  - apply option_like_iff in Eo. pose proof (head_class st pos arg Hf Ep Ed Eo) as Hc.
    remember (read_head c st pos arg) as rh eqn:Er. symmetry in Er.
    destruct Hc as [e|b Hb|sp i o nm v body Hs Ha Hfr Hm ->|sp i o ch v Hg Hfr Hm ->|sp i o nm Hs Hfr ->|i o nm Hs Hfr Hk ->].
    + rewrite (loop_head _ _ _ _ _ _ eq_refl Er) in H. discriminate.
    + cbn [loop] in H. rewrite Er in H. discriminate.
    + destruct (takes (o_kind o)) as [p|] eqn:Et; [|destruct (o_kind o); discriminate].
      pose proof (attached_nonul _ _ _ _ _ Hz0 Ha) as Hv.
      destruct (policy_consume_cases lb Hlb p v Hv) as [(x & Hx & Hr)|[Hx Hr]].
      * rewrite (step_value st pos _ rest i o p v x (proj1 Hs) Er Et Hr) in H.
        eapply r_attached; eauto. apply IH; auto; [lia|now apply fits_given].
      * rewrite (loop_head _ _ _ _ _ _ eq_refl Er) in H. cbn beta iota zeta in H. rewrite (proj1 Hs) in H.
        destruct (takes_facts o p Et) as (_ & Hh & _ & Hcs). rewrite Hcs, Hx in H. cbn [bind] in H.
        destruct (can_omit (o_kind o)) eqn:Eco; [|discriminate]. rewrite Hh in H.
        assert (Hk : o_kind o = KOption PBool) by (destruct (o_kind o) as [[]| | | |]; try discriminate; reflexivity).
        assert (p = PBool) by (rewrite Hk in Et; cbn in Et; congruence). subst p.
        eapply r_bool_attached_ignored; eauto. apply IH; auto. lia.
    + destruct (takes (o_kind o)) as [p|] eqn:Et; [|destruct (o_kind o); discriminate].
      assert (Hv : ~ In 0%N v).
      { intros Hv. apply Hz0. apply in_or_app. right. now right. }
      pose proof Hg as (_ & _ & Hs & _).
      destruct (policy_consume_cases lb Hlb p v Hv) as [(x & Hx & Hr)|[Hx Hr]].
      * rewrite (step_value st pos _ rest i o p v x (proj1 Hs) Er Et Hr) in H.
        eapply r_glued; eauto. apply IH; auto; [lia|now apply fits_given].
      * rewrite (loop_head _ _ _ _ _ _ eq_refl Er) in H. cbn beta iota zeta in H. rewrite (proj1 Hs) in H.
        destruct (takes_facts o p Et) as (_ & Hh & _ & Hcs). rewrite Hcs, Hx in H. cbn [bind] in H.
        destruct (can_omit (o_kind o)) eqn:Eco; [|discriminate]. rewrite Hh in H.
        assert (Hk : o_kind o = KOption PBool) by (destruct (o_kind o) as [[]| | | |]; try discriminate; reflexivity).
        assert (p = PBool) by (rewrite Hk in Et; cbn in Et; congruence). subst p.
        eapply r_bool_glued_ignored; eauto. apply IH; auto. lia.
    + destruct (takes (o_kind o)) as [p|] eqn:Et.
      * destruct (takes_facts o p Et) as (Hm & Hh & Hi & Hcs). rewrite Hi in Er.
        rewrite (loop_head _ _ _ _ _ _ eq_refl Er) in H. cbn beta iota zeta in H. rewrite (proj1 Hs), Hm in H.
        destruct rest as [|next rest'].
        -- destruct (can_omit (o_kind o)) eqn:Eco; [|discriminate].
           assert (Hk : o_kind o = KOption PBool) by (destruct (o_kind o) as [[]| | | |]; try discriminate; reflexivity).
           assert (p = PBool) by (rewrite Hk in Et; cbn in Et; congruence). subst p.
           rewrite Hcs in H. cbn [policy_consume bind] in H. rewrite (store_given st i o _ (proj1 Hs)), Hh in H.
           injection H as <- <- <-. apply r_bool_last; auto.
        -- apply Forall_cons_iff in Hz as [Hz1 Hz]. rewrite Hcs in H.
           destruct (policy_consume_cases lb Hlb p next Hz1) as [(x & Hx & Hr)|[Hx Hr]]; rewrite Hx in H; cbn [bind] in H.
           ++ rewrite Hh, (store_given st i o x (proj1 Hs)) in H. eapply r_spaced; eauto.
              apply IH; auto; [cbn [length] in Hn; lia|now apply fits_given].
           ++ destruct (can_omit (o_kind o)) eqn:Eco; [|discriminate]. rewrite Hh in H.
              assert (Hk : o_kind o = KOption PBool) by (destruct (o_kind o) as [[]| | | |]; try discriminate; reflexivity).
              assert (p = PBool) by (rewrite Hk in Et; cbn in Et; congruence). subst p.
              eapply r_bool_ignored; eauto. apply IH; auto; cbn [length] in *; lia.
      * destruct (flag_value o) as [x|] eqn:Ev; [|unfold flag_value in Ev; destruct (o_kind o); discriminate].
        rewrite (step_flag st pos _ rest i o x (proj1 Hs) Er Ev) in H.
        destruct (halts (o_kind o)) eqn:Eh.
        -- assert (Hk : o_kind o = KStop) by (destruct (o_kind o); try discriminate; reflexivity).
           injection H as <- <- <-. eapply r_stop; eauto.
        -- assert (Hk : o_kind o <> KStop) by (intros Hk; rewrite Hk in Eh; discriminate).
           assert (Hrest : reads lb c (given st i o x) pos rest st' pos' h)
             by (apply IH; auto; [lia|now apply fits_given]).
           eapply r_flag; eauto.
    + rewrite (loop_head _ _ _ _ _ _ eq_refl Er) in H. cbn beta iota zeta in H. rewrite (proj1 Hs) in H.
      unfold consume in H. rewrite Hk in H. cbn [bind halts] in H.
      change (streq (lit "false") (lit "true")) with false in H. rewrite (store_given st i o _ (proj1 Hs)) in H.
      eapply r_no_flag; eauto. apply IH; auto; [lia|now apply fits_given].
  - assert (Hno : ~ option_like c arg) by (intros Hx; apply option_like_iff in Hx; congruence).
    destruct (Nat.leb_spec (length (positionals c)) pos) as [Hpos|Hpos].
    + destruct (collect_extra c) eqn:Ex.
      * assert (E : read_head c st pos arg = Ok (HSkip (add_extra st arg))).
        { unfold read_head. rewrite Ed, Ep, Eo. apply Nat.leb_le in Hpos. rewrite Hpos, Ex. unfold add_extra. now rewrite Ep. }
        rewrite (loop_head _ _ _ _ _ _ eq_refl E) in H. apply r_extra; auto. apply IH; auto. lia.
      * assert (E : read_head c st pos arg = Ok (HErr UnrecognizedExtra)).
        { unfold read_head. rewrite Ed, Ep, Eo. apply Nat.leb_le in Hpos. rewrite Hpos, Ex. reflexivity. }
        rewrite (loop_head _ _ _ _ _ _ eq_refl E) in H. discriminate.
    + assert (E : read_head c st pos arg = Ok (HPos pos arg)).
      { unfold read_head. rewrite Ed, Ep, Eo. apply Nat.leb_gt in Hpos. rewrite Hpos. reflexivity. }
      rewrite (loop_head _ _ _ _ _ _ eq_refl E) in H. cbn beta iota zeta in H.
      destruct (nth_error (positionals c) pos) as [p|] eqn:En; [|discriminate].
      destruct (policy_consume_cases lb Hlb p arg Hz0) as [(x & Hx & Hr)|[Hx Hr]]; rewrite Hx in H; cbn [bind] in H; [|discriminate].
      eapply r_positional; eauto. apply IH; auto; [lia|now apply fits_pos].
Qed.

(** ** Faults *)
Definition no_unknown (arg : str) : Prop :=
  exists b, arg = lead Long ++ no_prefix ++ b /\ by_long c (name_of inl b) = None
    /\ by_long c (no_prefix ++ name_of inl b) = None.
Theorem loop_outcome n : forall args st pos, length args <= n -> fits c st ->
  Forall (fun a => ~ In 0%N a) args ->
  (exists r, loop lb c args pos st = Ok r)
  \/ (loop lb c args pos st = Fault NullDeref /\ exists pre arg post, args = pre ++ arg :: post /\ no_unknown arg).
Proof.
  induction n as [|n IH]; intros args st pos Hn Hf Hz.
  { destruct args; [|cbn in Hn; lia]. left. eexists. reflexivity. }
  destruct args as [|arg rest]; [left; eexists; reflexivity|].
  apply Forall_cons_iff in Hz as [Hz0 Hz]. cbn [length] in Hn.
  assert (IHc : forall st pos, fits c st ->
     (exists r, loop lb c rest pos st = Ok r)
     \/ (loop lb c rest pos st = Fault NullDeref /\ exists pre a post, arg :: rest = pre ++ a :: post /\ no_unknown a)).
  { intros st0 pos0 Hf0. destruct (IH rest st0 pos0) as [H|[H (pre & a & post & E & Ha)]]; auto; [lia|].
    right. split; auto. exists (arg :: pre), a, post. split; [now rewrite E|exact Ha]. }
  destruct (allow_pass c && streq arg (lit "--")) eqn:Ed.
  { assert (E : read_head c st pos arg = Ok (HSkip (start_pass st))) by (unfold read_head; now rewrite Ed).
    rewrite (loop_head _ _ _ _ _ _ eq_refl E). now apply IHc. }
  destruct (has_pass st) eqn:Ep.
  { assert (E : read_head c st pos arg = Ok (HSkip (add_pass st arg)))
      by (unfold read_head; rewrite Ed, Ep; unfold add_pass; now rewrite Ep).
    rewrite (loop_head _ _ _ _ _ _ eq_refl E). now apply IHc. }
  destruct (is_option c arg) eqn:Eo.
  - apply option_like_iff in Eo. pose proof (head_class st pos arg Hf Ep Ed Eo) as Hc.
    remember (read_head c st pos arg) as rh eqn:Er. symmetry in Er.
    assert (Hval : forall i o v, nth_error (options c) i = Some o -> must_omit (o_kind o) = false -> ~ In 0%N v ->
              read_head c st pos arg = Ok (HOpt i (Some v)) ->
              (exists r, loop lb c (arg :: rest) pos st = Ok r)
              \/ (loop lb c (arg :: rest) pos st = Fault NullDeref
                  /\ exists pre a post, arg :: rest = pre ++ a :: post /\ no_unknown a)).
    { intros i o v Ho Hm Hv E. rewrite (loop_head _ _ _ _ _ _ eq_refl E). cbn beta iota zeta. rewrite Ho.
      destruct (takes (o_kind o)) as [p|] eqn:Et; [|destruct (o_kind o); discriminate].
      destruct (takes_facts o p Et) as (_ & Hh & _ & Hcs). rewrite Hcs, Hh.
      destruct (policy_consume_cases lb Hlb p v Hv) as [(x & -> & Hr)|[-> Hr]]; cbn [bind].
      - rewrite (store_given st i o x Ho). apply IHc. now apply fits_given.
      - destruct (can_omit (o_kind o)); [now apply IHc|]. left. eexists. reflexivity. }
    destruct Hc as [e|b Hb Hb1 Hb2|sp i o nm v body Hs Ha Hfr Hm Harg|sp i o ch v Hg Hfr Hm Harg|sp i o nm Hs Hfr Harg|i o nm Hs Hfr Hk Harg].
    + rewrite (loop_head _ _ _ _ _ _ eq_refl Er). left. eexists. reflexivity.
    + right. split; [cbn [loop]; now rewrite Er|]. exists [], arg, rest. split; [reflexivity|]. exists b. auto.
    + subst arg. apply (Hval i o v); auto; [apply Hs|]. eapply attached_nonul; eauto.
    + subst arg. apply (Hval i o v); auto; [apply Hg|]. intros Hv. apply Hz0. apply in_or_app. right. now right.
    + destruct (takes (o_kind o)) as [p|] eqn:Et.
      * destruct (takes_facts o p Et) as (Hm & Hh & Hi & Hcs). rewrite Hi in Er.
        rewrite (loop_head _ _ _ _ _ _ eq_refl Er). cbn beta iota zeta. rewrite (proj1 Hs), Hm.
        destruct rest as [|next rest'].
        -- destruct (can_omit (o_kind o)) eqn:Eco; [|left; eexists; reflexivity].
           assert (Hk : o_kind o = KOption PBool) by (destruct (o_kind o) as [[]| | | |]; try discriminate; reflexivity).
           unfold consume. rewrite Hk. cbn [policy_consume bind]. left. eexists. reflexivity.
        -- pose proof Hz as Hz'. apply Forall_cons_iff in Hz as [Hz1 Hz]. rewrite Hcs, Hh.
           destruct (policy_consume_cases lb Hlb p next Hz1) as [(x & -> & Hr)|[-> Hr]]; cbn [bind].
           ++ rewrite (store_given st i o x (proj1 Hs)).
              destruct (IH rest' (given st i o x) pos) as [H|[H (pre & a & post & E & Ha)]]; auto;
                [cbn [length] in Hn; lia|now apply fits_given|].
              right. split; auto. exists (arg :: next :: pre), a, post. split; [now rewrite E|exact Ha].
           ++ destruct (can_omit (o_kind o)); [now apply IHc|]. left. eexists. reflexivity.
      * destruct (flag_value o) as [x|] eqn:Ev; [|unfold flag_value in Ev; destruct (o_kind o); discriminate].
        rewrite (step_flag st pos _ rest i o x (proj1 Hs) Er Ev).
        destruct (halts (o_kind o)); [left; eexists; reflexivity|]. apply IHc. now apply fits_given.
    + rewrite (loop_head _ _ _ _ _ _ eq_refl Er). cbn beta iota zeta. rewrite (proj1 Hs).
      unfold consume. rewrite Hk. cbn [bind halts].
      rewrite (store_given st i o _ (proj1 Hs)). apply IHc. now apply fits_given.
  - destruct (Nat.leb_spec (length (positionals c)) pos) as [Hpos|Hpos].
    + destruct (collect_extra c) eqn:Ex.
      * assert (E : read_head c st pos arg = Ok (HSkip (add_extra st arg))).
        { unfold read_head. rewrite Ed, Ep, Eo. apply Nat.leb_le in Hpos. rewrite Hpos, Ex. unfold add_extra. now rewrite Ep. }
        rewrite (loop_head _ _ _ _ _ _ eq_refl E). now apply IHc.
      * assert (E : read_head c st pos arg = Ok (HErr UnrecognizedExtra)).
        { unfold read_head. rewrite Ed, Ep, Eo. apply Nat.leb_le in Hpos. rewrite Hpos, Ex. reflexivity. }
        rewrite (loop_head _ _ _ _ _ _ eq_refl E). left. eexists. reflexivity.
    + assert (E : read_head c st pos arg = Ok (HPos pos arg)).
      { unfold read_head. rewrite Ed, Ep, Eo. apply Nat.leb_gt in Hpos. rewrite Hpos. reflexivity. }
      rewrite (loop_head _ _ _ _ _ _ eq_refl E). cbn beta iota zeta.
      destruct (nth_error (positionals c) pos) as [p|] eqn:En; [|apply nth_error_None in En; lia].
      destruct (policy_consume_cases lb Hlb p arg Hz0) as [(x & -> & Hr)|[-> Hr]]; cbn [bind].
      * apply IHc. now apply fits_pos.
      * left. eexists. reflexivity.
Qed.
End Agree.
