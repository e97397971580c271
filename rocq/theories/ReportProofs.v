From Coq Require Import String.
From Verif Require Import Base ArgModel ArgSpec ArgEntryModel ArgEntryProps StrModel StrSpec StrProofs StrProps
  UsageModel UsageSpec UsageProofs UsageProps ReportModel ReportSpec.
Local Open Scope nat_scope.
Local Open Scope list_scope.

(** ** Which error *)
(** What an error says about the arguments, in terms of option numbers. *)
Inductive about (c : cfg) (args : list str) : perr -> Prop :=
| ab_unknown a : In a args -> is_option c a = true -> about c args (Unrecognized a)
| ab_extra a : In a args -> is_option c a = false -> collect_extra c = false -> about c args UnrecognizedExtra
| ab_needs i o before a : nth_error (options c) i = Some o -> o_kind o <> KOption PBool -> args = before ++ [a] -> is_option c a = true ->
    about c args (NeedsValue i)
| ab_invalid i o v a k : nth_error (options c) i = Some o -> In a args -> v = skipn k a -> about c args (InvalidValue false i v)
| ab_invalid_positional i v p : nth_error (positionals c) i = Some p -> In v args -> is_option c v = false ->
    about c args (InvalidValue true i v)
| ab_twice i o a : nth_error (options c) i = Some o -> (forall p, o_kind o <> KRepeat p) -> In a args -> is_option c a = true ->
    about c args (AlreadySpecified i).
Lemma about_cons c a args e : about c args e -> about c (a :: args) e.
Proof.
  intros H. destruct H as [b Hb Hl|b Hb Hl Hc|i o before b Hi Hk Hb Hl|i o v b k Hi Ha Hv|i v p Hi Ha Hl|i o b Hi Hk Ha Hl].
  - apply ab_unknown; [now right|exact Hl].
  - apply (ab_extra c _ b); [now right|exact Hl|exact Hc].
  - apply (ab_needs c _ i o (a :: before) b); auto. now rewrite Hb.
  - apply (ab_invalid c _ i o v b k); auto. now right.
  - apply (ab_invalid_positional c _ i v p); auto. now right.
  - apply (ab_twice c _ i o b); auto. now right.
Qed.
Lemma kind_at_some c i k : kind_at c i = Ok k -> exists o, nth_error (options c) i = Some o /\ o_kind o = k.
Proof. unfold kind_at. destruct (nth_error (options c) i) as [o|]; [|discriminate]. intros [= <-]. eauto. Qed.
Lemma head_err c st pos a rest e : read_head c st pos a = Ok (HErr e) -> about c (a :: rest) e.
Proof.
  unfold read_head. destruct (allow_pass c && _); [discriminate|]. destruct (has_pass st); [discriminate|].
  destruct (is_option c a) eqn:Eo.
  - destruct (resolve c a) as [[[[i v] sep]|]| |]; cbn [bind]; try (intros; discriminate).
    + destruct (kind_at c i) as [k| |] eqn:Ek; cbn [bind]; try (intros; discriminate).
      apply kind_at_some in Ek as (o & Ho & <-).
      destruct (slot_get (vals st) i) as [vs| |]; cbn [bind]; try (intros; discriminate).
      destruct (will_repeat (o_kind o) vs) eqn:Er; cbn [negb].
      * destruct sep as [q|]; [|discriminate].
        unfold ptr_add. destruct (q + 1 <=? length a); cbn [bind]; [|discriminate].
        destruct (must_omit (o_kind o)); [|discriminate]. intros [= <-].
        eapply ab_invalid; [exact Ho|left; reflexivity|reflexivity].
      * intros [= <-]. eapply ab_twice; [exact Ho| |left; reflexivity|exact Eo].
        intros p Hp. rewrite Hp in Er. discriminate.
    + intros [= <-]. apply ab_unknown; [now left|exact Eo].
  - destruct (length (positionals c) <=? pos); [|discriminate].
    destruct (collect_extra c) eqn:Ec; [discriminate|]. intros [= <-]. eapply ab_extra; [left; reflexivity|exact Eo|exact Ec].
Qed.
Lemma head_pos c st pos a i v : read_head c st pos a = Ok (HPos i v) -> v = a /\ i = pos /\ is_option c a = false.
Proof.
  unfold read_head. destruct (allow_pass c && _); [discriminate|]. destruct (has_pass st); [discriminate|].
  destruct (is_option c a) eqn:Eo.
  - destruct (resolve c a) as [[[[j x] sep]|]| |]; cbn [bind]; try (intros; discriminate).
    destruct (kind_at c j) as [k| |]; cbn [bind]; try (intros; discriminate).
    destruct (slot_get (vals st) j) as [vs| |]; cbn [bind]; try (intros; discriminate).
    destruct (negb (will_repeat k vs)); [discriminate|]. destruct sep as [q|]; [|discriminate].
    destruct (ptr_add a (q + 1)); cbn [bind]; try (intros; discriminate). destruct (must_omit k); discriminate.
  - destruct (length (positionals c) <=? pos); [destruct (collect_extra c); discriminate|]. intros [= <- <-]. auto.
Qed.
Lemma head_is_opt c st pos a i v : read_head c st pos a = Ok (HOpt i v) -> is_option c a = true.
Proof.
  unfold read_head. destruct (allow_pass c && _); [discriminate|]. destruct (has_pass st); [discriminate|].
  destruct (is_option c a) eqn:Eo; [reflexivity|].
  destruct (length (positionals c) <=? pos); [destruct (collect_extra c)|]; discriminate.
Qed.

(** An EnableOption always accepts the values the parser implies, so those never appear in an error. *)
Lemma implied_consumed c st pos a i v o : read_head c st pos a = Ok (HOpt i (Some v)) -> nth_error (options c) i = Some o ->
  (exists k, v = skipn k a) \/ o_kind o = KEnable.
Proof.
  unfold read_head. destruct (allow_pass c && _); [intros; discriminate|]. destruct (has_pass st); [intros; discriminate|].
  destruct (is_option c a) eqn:Eo.
  - destruct (resolve c a) as [[[[j x] sep]|]| |] eqn:Er; cbn [bind]; try (intros; discriminate).
    destruct (kind_at c j) as [k| |] eqn:Ek; cbn [bind]; try (intros; discriminate).
    destruct (slot_get (vals st) j) as [vs| |]; cbn [bind]; try (intros; discriminate).
    destruct (negb (will_repeat k vs)); [intros; discriminate|].
    destruct sep as [q|].
    + unfold ptr_add. destruct (q + 1 <=? length a); cbn [bind]; [|intros; discriminate].
      destruct (must_omit k); [intros; discriminate|]. intros [= _ <-] _. left. eauto.
    + intros [= -> ->] Ho. right. apply kind_at_some in Ek as (o' & Ho' & _). assert (o' = o) by congruence. subst o'.
      revert Er Ho. clear. unfold resolve.
      match goal with |- bind ?x _ = _ -> _ => destruct x as [s1| |]; cbn [bind]; try (intros; discriminate) end.
      match goal with |- bind ?x _ = _ -> _ => destruct x as [[op s2]| |]; cbn [bind]; try (intros; discriminate) end.
      destruct op as [o1|].
      * destruct (kind_at c o1) as [k| |] eqn:Ek; cbn [bind]; try (intros; discriminate). destruct (prefix_no k) eqn:Ep; [|intros; discriminate].
        intros [= -> _ _] Ho. apply kind_at_some in Ek as (o' & Ho' & E). assert (o' = o) by congruence. subst o'. subst k.
        destruct (o_kind o); try discriminate. reflexivity.
      * destruct (ArgModel.strncmp_eq 5 a (lit "--no-")); [|intros; discriminate].
        destruct (ptr_add a 5) as [p| |]; cbn [bind]; try (intros; discriminate).
        match goal with |- bind ?x _ = _ -> _ => destruct x as [n| |]; cbn [bind]; try (intros; discriminate) end.
        destruct (find_long c p n) as [o1|]; [|intros; discriminate].
        destruct (kind_at c o1) as [k| |] eqn:Ek; cbn [bind]; try (intros; discriminate). destruct (prefix_no k) eqn:Ep; [|intros; discriminate].
        intros [= -> _ _] Ho. apply kind_at_some in Ek as (o' & Ho' & E). assert (o' = o) by congruence. subst o'. subst k.
        destruct (o_kind o); try discriminate. reflexivity.
  - destruct (length (positionals c) <=? pos); [|intros; discriminate]. destruct (collect_extra c); intros; discriminate.
Qed.

Lemma loop_about lb c : forall n args, length args <= n -> forall pos st st',
  loop lb c args pos st = Ok (LErr st') -> exists e, error st' = Some e /\ about c args e.
Proof.
  induction n as [|n IH]; intros args Hn pos st st'.
  - destruct args; [discriminate|cbn in Hn; lia].
  - destruct args as [|a rest]; [discriminate|]. cbn [length] in Hn. cbn [loop].
    assert (IH1 : forall pos st st', loop lb c rest pos st = Ok (LErr st') -> exists e, error st' = Some e /\ about c (a :: rest) e).
    { intros p s s' H. destruct (IH rest ltac:(lia) p s s' H) as (e & E1 & E2). exists e. split; [exact E1|now apply about_cons]. }
    destruct (read_head c st pos a) as [h| |] eqn:Eh; cbn [bind]; try (intros; discriminate).
    destruct h as [e|s|i v|i v].
    + intros [= <-]. exists e. split; [reflexivity|]. eapply head_err; eauto.
    + apply IH1.
    + destruct (nth_error (options c) i) as [o|] eqn:Ho; [|discriminate].
      pose proof (head_is_opt _ _ _ _ _ _ Eh) as Hopt.
      destruct v as [v|].
      * destruct (consume lb o (Some v)) as [[x|]| |] eqn:Ec; cbn [bind]; try (intros; discriminate).
        -- destruct (halts (o_kind o)); [discriminate|]. apply IH1.
        -- destruct (can_omit (o_kind o)).
           ++ destruct (halts (o_kind o)); [discriminate|]. apply IH1.
           ++ intros [= <-]. eexists. split; [reflexivity|].
              destruct (implied_consumed _ _ _ _ _ _ _ Eh Ho) as [[k Hk]|Hk].
              ** eapply ab_invalid; [exact Ho|left; reflexivity|exact Hk].
              ** unfold consume in Ec. rewrite Hk in Ec. discriminate.
      * destruct rest as [|next rest'].
        -- destruct (can_omit (o_kind o)) eqn:Ecan.
           ++ destruct (consume lb o None) as [[x|]| |]; cbn [bind]; discriminate.
           ++ intros [= <-]. eexists. split; [reflexivity|]. apply (ab_needs c [a] i o [] a); auto.
              intros Hk. rewrite Hk in Ecan. discriminate.
        -- destruct (must_omit (o_kind o)).
           ++ destruct (consume lb o None) as [[x|]| |]; cbn [bind]; try (intros; discriminate).
              ** destruct (halts (o_kind o)); [discriminate|]. apply IH1.
              ** destruct (can_omit (o_kind o)); [|discriminate]. destruct (halts (o_kind o)); [discriminate|]. apply IH1.
           ++ destruct (consume lb o (Some next)) as [[x|]| |]; cbn [bind]; try (intros; discriminate).
              ** destruct (halts (o_kind o)); [discriminate|]. intros H.
                 destruct (IH rest' ltac:(cbn [length] in Hn; lia) _ _ _ H) as (e & E1 & E2). exists e.
                 split; [exact E1|]. now apply about_cons, about_cons.
              ** destruct (can_omit (o_kind o)).
                 { destruct (halts (o_kind o)); [discriminate|]. apply IH1. }
                 intros [= <-]. eexists. split; [reflexivity|].
                 eapply (ab_invalid c _ i o next next 0); [exact Ho|right; now left|reflexivity].
    + destruct (nth_error (positionals c) i) as [p|] eqn:Hp; [|discriminate].
      destruct (head_pos _ _ _ _ _ _ Eh) as (-> & -> & Hopt).
      destruct (policy_consume lb p (Some a)) as [[x|]| |]; cbn [bind]; try (intros; discriminate).
      * apply IH1.
      * intros [= <-]. eexists. split; [reflexivity|]. eapply ab_invalid_positional; [exact Hp|now left|exact Hopt].
Qed.
Lemma loop_keeps_error lb c : forall n args, length args <= n -> forall pos st p h st',
  loop lb c args pos st = Ok (LDone p h st') -> error st' = error st.
Proof.
  induction n as [|n IH]; intros args Hn pos st p h st'.
  - destruct args; [|cbn in Hn; lia]. cbn. congruence.
  - destruct args as [|a rest]; [cbn; congruence|]. cbn [length] in Hn. cbn [loop].
    assert (IH1 : forall pos st p h st', loop lb c rest pos st = Ok (LDone p h st') -> error st' = error st)
      by (intros; eapply (IH rest); [lia|eassumption]).
    assert (St : forall i x, error (store c st i x) = error st) by reflexivity.
    destruct (read_head c st pos a) as [hd| |] eqn:Eh; cbn [bind]; try (intros; discriminate).
    destruct hd as [e|s|i v|i v].
    + discriminate.
    + intros H. apply IH1 in H. rewrite H. revert Eh. clear. unfold read_head.
      destruct (allow_pass c && _); [intros [= <-]; reflexivity|]. destruct (has_pass st); [intros [= <-]; reflexivity|].
      destruct (is_option c a).
      * destruct (resolve c a) as [[[[j x] sep]|]| |]; cbn [bind]; try (intros; discriminate).
        destruct (kind_at c j) as [k| |]; cbn [bind]; try (intros; discriminate).
        destruct (slot_get (vals st) j) as [vs| |]; cbn [bind]; try (intros; discriminate).
        destruct (negb (will_repeat k vs)); [discriminate|]. destruct sep as [q|]; [|discriminate].
        destruct (ptr_add a (q + 1)); cbn [bind]; try (intros; discriminate). destruct (must_omit k); discriminate.
      * destruct (length (positionals c) <=? pos); [destruct (collect_extra c)|]; try discriminate. intros [= <-]. reflexivity.
    + destruct (nth_error (options c) i) as [o|]; [|discriminate].
      destruct v as [v|].
      * destruct (consume lb o (Some v)) as [[x|]| |]; cbn [bind]; try (intros; discriminate).
        -- destruct (halts (o_kind o)); [intros [= _ _ <-]; apply St|]. intros H. apply IH1 in H. now rewrite H.
        -- destruct (can_omit (o_kind o)); [|discriminate]. destruct (halts (o_kind o)); [congruence|]. apply IH1.
      * destruct rest as [|next rest'].
        -- destruct (can_omit (o_kind o)); [|discriminate].
           destruct (consume lb o None) as [[x|]| |]; cbn [bind]; try discriminate; intros [= _ _ <-]; [apply St|reflexivity].
        -- destruct (must_omit (o_kind o)).
           ++ destruct (consume lb o None) as [[x|]| |]; cbn [bind]; try (intros; discriminate).
              ** destruct (halts (o_kind o)); [intros [= _ _ <-]; apply St|]. intros H. apply IH1 in H. now rewrite H.
              ** destruct (can_omit (o_kind o)); [|discriminate]. destruct (halts (o_kind o)); [congruence|]. apply IH1.
           ++ destruct (consume lb o (Some next)) as [[x|]| |]; cbn [bind]; try (intros; discriminate).
              ** destruct (halts (o_kind o)); [intros [= _ _ <-]; apply St|]. intros H.
                 rewrite (IH rest' ltac:(cbn [length] in Hn; lia) _ _ _ _ _ H). apply St.
              ** destruct (can_omit (o_kind o)); [|discriminate]. destruct (halts (o_kind o)); [congruence|]. apply IH1.
    + destruct (nth_error (positionals c) i) as [q|]; [|discriminate].
      destruct (policy_consume lb q (Some v)) as [[x|]| |]; cbn [bind]; try (intros; discriminate). intros H. apply IH1 in H. now rewrite H.
Qed.
Lemma parse_false lb c st args st' : parse lb c st args = Ok (false, st') ->
  (error st' = error st /\ help_wanted c st' = true)
  \/ exists e, error st' = Some e /\ (about c args e \/ exists i p, e = MissingPositional i /\ nth_error (positionals c) i = Some p).
Proof.
  unfold parse. destruct (loop lb c args 0 st) as [[s|p h s]| |] eqn:E; cbn [bind]; try (intros; discriminate).
  - intros [= <-]. right. destruct (loop_about lb c (length args) args (le_n _) _ _ _ E) as (e & E1 & E2). eauto.
  - destruct (negb h && (p <? length (positionals c))) eqn:Ep.
    + intros [= <-]. right. exists (MissingPositional p). split; [reflexivity|]. right.
      apply andb_prop in Ep as [_ Ep]. apply Nat.ltb_lt in Ep.
      destruct (nth_error (positionals c) p) as [q|] eqn:Eq; [eauto|]. apply nth_error_None in Eq. lia.
    + destruct (help_wanted c s) eqn:Eh; [|discriminate]. intros [= <-]. left. split; [|exact Eh].
      eapply loop_keeps_error; eauto.
Qed.
Lemma parse_true_error lb c st args st' : parse lb c st args = Ok (true, st') -> error st' = error st.
Proof.
  unfold parse. destruct (loop lb c args 0 st) as [[s|p h s]| |] eqn:E; cbn [bind]; try (intros; discriminate).
  destruct (negb h && (p <? length (positionals c))); [discriminate|].
  destruct (help_wanted c s); [discriminate|]. intros [= <-]. eapply loop_keeps_error; eauto.
Qed.

(** ** The text *)
Section Text.
Variables (w : N) (debug cs msvc : bool) (lb : Z).
Lemma printf_ok m : printable m -> printf debug msvc m = Ok m.
Proof. intros H. apply (C47_string_printf_partial debug msvc m). exact H. Qed.
Lemma opt_desc c t i o : length (t_helps t) = length (options c) -> nth_error (options c) i = Some o ->
  exists h, slot_get (u_opts (ucfg_of c t [])) i = Ok (desc_opt (o, h)).
Proof.
  intros Hl Ho. cbn [ucfg_of u_opts]. assert (Hi : i < length (t_helps t)) by (rewrite Hl; apply nth_error_Some; congruence).
  destruct (nth_error (t_helps t) i) as [h|] eqn:Eh; [|apply nth_error_None in Eh; lia]. exists h.
  unfold slot_get. rewrite nth_error_map.
  assert (E : nth_error (combine (options c) (t_helps t)) i = Some (o, h)).
  { clear - Ho Eh. revert i Ho Eh. generalize (t_helps t). induction (options c) as [|x l IH]; intros l' i Ho Eh; [destruct i; discriminate|].
    destruct l' as [|y l']; [destruct i; discriminate|]. destruct i; cbn in *; [congruence|]. now apply IH. }
  now rewrite E.
Qed.
Lemma pos_desc c t i n h : nth_error (t_poss t) i = Some (n, h) ->
  slot_get (u_pos (ucfg_of c t [])) i = Ok (desc_pos (n, h)).
Proof. intros H. cbn [ucfg_of u_pos]. unfold slot_get. rewrite nth_error_map, H. reflexivity. Qed.
Lemma pretty_opt o h n : known_as o n -> pretty_name (desc_opt (o, h)) = Ok n.
Proof. unfold pretty_name. cbn [desc_opt u_name u_long u_short fst]. intros [->|[-> ->]]; reflexivity. Qed.

(** What usage() prints when there is a message. *)
Lemma shown c t argv0 args m : texts_fit w c t argv0 -> m <> [] -> no_help_word c args ->
  usage w debug cs (ucfg_of c t m) (argv0 :: args) = Ok (complaint t argv0 m).
Proof.
  intros (Hp & Ho & Hw) Hm Hh. apply (C82_error_text w debug cs (ucfg_of c t m) argv0 args (usage_text t argv0)).
  - exact Hm.
  - cbn [ucfg_of u_helpopt]. destruct Hh as [->|H]; [now left|now right].
  - cbn [ucfg_of u_pos]. apply Forall_forall. intros x Hx. apply in_map_iff in Hx as (y & <- & _). discriminate.
  - cbn [ucfg_of u_line u_pos]. unfold usage_text. do 2 f_equal. destruct (t_line t); [|reflexivity]. do 2 f_equal.
    rewrite map_map. reflexivity.
  - exact Hw.
Qed.
Lemma hidden c t argv0 args m : help c <> None -> In (lit "-h") args \/ In (lit "--help") args ->
  usage w debug cs (ucfg_of c t m) (argv0 :: args) = usage w debug cs (ucfg_of c t []) (argv0 :: args).
Proof.
  intros Hc Hh. unfold usage. cbn [ucfg_of u_error u_helpopt].
  assert (Ew : wants_help (argv0 :: args) = true).
  { unfold wants_help. cbn [tl]. apply existsb_exists. destruct Hh as [Hin|Hin]; eexists; (split; [exact Hin|]); reflexivity. }
  rewrite Ew. destruct (help c); [|contradiction]. cbn [is_null negb orb]. rewrite andb_false_r. cbn [is_empty negb andb]. reflexivity.
Qed.
Lemma main_parse c t st argv0 args : main w debug cs msvc lb c t st (argv0 :: args) =
  do (ok, st) <- parse lb c st args;
  if ok then Ok (true, [], st) else do out <- show_usage w debug cs msvc c t st (argv0 :: args); Ok (false, out, st).
Proof.
  unfold main. cbn [List.map app length].
  pose proof (proj1 (C107_overloads_agree_partial lb c st argv0 args [])) as E. cbn [Nat.add] in E. rewrite E. reflexivity.
Qed.
Lemma reported c t argv0 args e m : texts_fit w c t argv0 -> rejects lb c args e ->
  message debug msvc (ucfg_of c t []) e = Ok m -> m <> [] -> no_help_word c args ->
  exists st, main w debug cs msvc lb c t (init c) (argv0 :: args) = Ok (false, complaint t argv0 m, st).
Proof.
  intros Hf (st & Hp & He) Hm Hn Hh. exists st. rewrite main_parse, Hp. cbn [bind]. unfold show_usage, error_text.
  rewrite He, Hm. cbn [bind]. rewrite (shown c t argv0 args m Hf Hn Hh). reflexivity.
Qed.
Lemma known c o : In o (options c) -> o_short o <> None \/ o_long o <> None -> exists n, known_as o n.
Proof.
  intros _ H. unfold known_as. destruct (o_long o) as [l|]; [eauto|]. destruct (o_short o) as [s|]; [eauto|]. destruct H; contradiction.
Qed.
Lemma is_option_iff c a : is_option c a = true <-> option_like c a.
Proof.
  unfold is_option, option_like. rewrite orb_true_iff, andb_true_iff. rewrite !N.eqb_eq. tauto.
Qed.
(** Every error has a text that says what is wrong. *)
Lemma message_blames c t args e :
  length (t_poss t) = length (positionals c) -> length (t_helps t) = length (options c) ->
  (forall o, In o (options c) -> o_short o <> None \/ o_long o <> None) ->
  (about c args e \/ exists i p, e = MissingPositional i /\ nth_error (positionals c) i = Some p) ->
  exists m, blames c t args m /\ m <> [] /\ (printable m -> message debug msvc (ucfg_of c t []) e = Ok m).
Proof.
  intros Hp Ho Hn H.
  assert (Hpos : forall i p, nth_error (positionals c) i = Some p -> exists n h, nth_error (t_poss t) i = Some (n, h)).
  { intros i p Hi. assert (Hl : i < length (t_poss t)) by (rewrite Hp; apply nth_error_Some; congruence).
    destruct (nth_error (t_poss t) i) as [[n h]|] eqn:E; [eauto|]. apply nth_error_None in E. lia. }
  assert (Hopt : forall i o, nth_error (options c) i = Some o -> In o (options c) /\ exists n, known_as o n).
  { intros i o Hi. assert (Hin : In o (options c)) by (eapply nth_error_In; eauto). split; [exact Hin|]. apply (known c); auto. }
  assert (Hno : forall a, is_option c a = false -> ~ option_like c a).
  { intros a Ha Hl. apply is_option_iff in Hl. congruence. }
  destruct H as [H|(i & p & -> & Hi)].
  - destruct H as [a Ha Hl|a Ha Hl Hc|i o before a Hi Hk Hb Hl|i o v a k Hi Ha Hv|i v p Hi Ha Hl|i o a Hi Hk Ha Hl].
    + exists (lit "Unrecognized option: " ++ a). split; [apply bl_unknown; [exact Ha|now apply is_option_iff]|].
      split; [discriminate|]. intros Hm. cbn [message]. now apply printf_ok.
    + eexists. split; [eapply bl_extra; eauto|]. split; [discriminate|]. reflexivity.
    + destruct (Hopt i o Hi) as (Hin & n & Hkn). exists (lit "Option '" ++ n ++ lit "' needs a value.").
      split; [eapply bl_needs; eauto; now apply is_option_iff|]. split; [discriminate|]. intros Hm. cbn [message].
      destruct (opt_desc c t i o Ho Hi) as (h & ->). cbn [bind]. rewrite (pretty_opt o h n Hkn). cbn [bind]. now apply printf_ok.
    + destruct (Hopt i o Hi) as (Hin & n & Hkn). exists (lit "Argument '" ++ n ++ lit "' did not recognize value: " ++ v).
      split; [eapply bl_invalid; eauto|]. split; [discriminate|]. intros Hm. cbn [message].
      destruct (opt_desc c t i o Ho Hi) as (h & ->). cbn [bind]. rewrite (pretty_opt o h n Hkn). cbn [bind]. now apply printf_ok.
    + destruct (Hpos i p Hi) as (n & h & Hnh). exists (lit "Argument '" ++ n ++ lit "' did not recognize value: " ++ v).
      split; [eapply bl_invalid_positional; eauto|]. split; [discriminate|]. intros Hm. cbn [message].
      rewrite (pos_desc c t i n h Hnh). cbn [bind pretty_name desc_pos u_name fst]. now apply printf_ok.
    + destruct (Hopt i o Hi) as (Hin & n & Hkn). exists (lit "Option '" ++ n ++ lit "' was specified more than once.").
      split; [eapply bl_twice; eauto; now apply is_option_iff|]. split; [discriminate|]. intros Hm. cbn [message].
      destruct (opt_desc c t i o Ho Hi) as (h & ->). cbn [bind]. rewrite (pretty_opt o h n Hkn). cbn [bind]. now apply printf_ok.
  - destruct (Hpos i p Hi) as (n & h & Hnh). exists (lit "Missing value for '" ++ n ++ lit "'.").
    split; [eapply bl_missing; eauto|]. split; [discriminate|]. intros Hm. cbn [message].
    rewrite (pos_desc c t i n h Hnh). cbn [bind pretty_name desc_pos u_name fst]. now apply printf_ok.
Qed.
End Text.
