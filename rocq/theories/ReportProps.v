(** C111: what usage() prints after a rejected command line. *)
From Coq Require Import String.
From Verif Require Import Base ArgModel ArgSpec ArgProps ArgEntryModel ArgEntryProps StrModel StrSpec UsageModel UsageSpec UsageProps
  ReportModel ReportSpec ReportProofs.
Local Open Scope nat_scope.
Local Open Scope list_scope.

(** Every rejection is explained: with no help word among the arguments the program prints the usage line and a message about
    an argument it was given or an option it knows.  Without a message, parse() was false because help was asked for, and
    the help text is printed.  Partial: see the refutations below. *)
Theorem C111_rejection_explained_partial : forall w debug cs msvc lb c t argv0 args st,
  texts_fit w c t argv0 -> (forall o, In o (options c) -> o_short o <> None \/ o_long o <> None) ->
  no_help_word c args -> parse lb c (init c) args = Ok (false, st) ->
  (exists m, blames c t args m
     /\ (printable m -> main w debug cs msvc lb c t (init c) (argv0 :: args) = Ok (false, complaint t argv0 m, st)))
  \/ (help_wanted c st = true
      /\ main w debug cs msvc lb c t (init c) (argv0 :: args)
         = do out <- usage w debug cs (ucfg_of c t []) (argv0 :: args); Ok (false, out, st)).
Proof.
  intros w debug cs msvc lb c t argv0 args st Hf Hn Hh Hp. rewrite main_parse, Hp. cbn [bind]. unfold show_usage, error_text.
  destruct (parse_false lb c (init c) args st Hp) as [[He Hw]|(e & He & Ha)].
  - right. split; [exact Hw|]. rewrite He. cbn [init error bind]. reflexivity.
  - left. destruct (message_blames debug msvc c t args e (proj1 Hf) (proj1 (proj2 Hf)) Hn Ha) as (m & Hb & Hm & Hp').
    exists m. split; [exact Hb|]. intros Hpr. rewrite He, (Hp' Hpr). cbn [bind]. rewrite (shown w debug cs c t argv0 args m Hf Hm Hh). reflexivity.
Qed.
Print Assumptions C111_rejection_explained_partial.

(** The messages, kind by kind: after anything well-formed, whatever follows. *)
Theorem C111_unknown_option_partial : forall w debug cs msvc lb c t argv0 ss args a rest,
  (0 < lb)%Z -> cfg_ok c -> texts_fit w c t argv0 -> no_help_word c (args ++ a :: rest) ->
  says lb c ss args -> option_like c a ->
  ~ (allow_pass c = true /\ a = lit "--") -> ~ refers c a -> ~ stuck c a ->
  (forall b, a = lit "--no-" ++ b -> exists i o n, negates c a i o n /\ o_kind o <> KEnable) ->
  printable (lit "Unrecognized option: " ++ a) ->
  exists st, main w debug cs msvc lb c t (init c) (argv0 :: args ++ a :: rest)
    = Ok (false, complaint t argv0 (lit "Unrecognized option: " ++ a), st).
Proof.
  intros w debug cs msvc lb c t argv0 ss args a rest Hlb Hok Hf Hh Hs Ho Hd Hr Hst Hn Hp.
  apply (reported w debug cs msvc lb c t argv0 _ (Unrecognized a)); auto; [|now apply printf_ok|discriminate].
  apply (C75_unknown_option lb c ss); auto.
Qed.
Print Assumptions C111_unknown_option_partial.
Theorem C111_repeated_option_partial : forall w debug cs msvc lb c t argv0 ss args sp i o n body rest name,
  (0 < lb)%Z -> cfg_ok c -> texts_fit w c t argv0 -> no_help_word c (args ++ (lead sp ++ body) :: rest) ->
  says lb c ss args -> spelled c sp i o n ->
  (body = n \/ exists v, attached (inline_values c) body n v) ->
  (forall p, o_kind o <> KRepeat p) -> gives i ss <> [] -> known_as o name ->
  printable (lit "Option '" ++ name ++ lit "' was specified more than once.") ->
  exists st, main w debug cs msvc lb c t (init c) (argv0 :: args ++ (lead sp ++ body) :: rest)
    = Ok (false, complaint t argv0 (lit "Option '" ++ name ++ lit "' was specified more than once."), st).
Proof.
  intros w debug cs msvc lb c t argv0 ss args sp i o n body rest name Hlb Hok Hf Hh Hs Hsp Hb Hk Hg Hkn Hp.
  apply (reported w debug cs msvc lb c t argv0 _ (AlreadySpecified i)); auto; [| |discriminate].
  - eapply (C75_repeated_option lb c ss); eauto.
  - cbn [message]. destruct (opt_desc c t i o (proj1 (proj2 Hf)) (proj1 Hsp)) as (h & ->). cbn [bind].
    rewrite (pretty_opt o h name Hkn). cbn [bind]. now apply printf_ok.
Qed.
Print Assumptions C111_repeated_option_partial.
Theorem C111_missing_value_partial : forall w debug cs msvc lb c t argv0 ss args sp i o n name,
  (0 < lb)%Z -> cfg_ok c -> texts_fit w c t argv0 -> no_help_word c (args ++ [lead sp ++ n]) ->
  says lb c ss args -> spelled c sp i o n ->
  takes (o_kind o) <> None -> o_kind o <> KOption PBool -> ((exists p, o_kind o = KRepeat p) \/ gives i ss = []) ->
  known_as o name -> printable (lit "Option '" ++ name ++ lit "' needs a value.") ->
  exists st, main w debug cs msvc lb c t (init c) (argv0 :: args ++ [lead sp ++ n])
    = Ok (false, complaint t argv0 (lit "Option '" ++ name ++ lit "' needs a value."), st).
Proof.
  intros w debug cs msvc lb c t argv0 ss args sp i o n name Hlb Hok Hf Hh Hs Hsp Hk Hb Hg Hkn Hp.
  apply (reported w debug cs msvc lb c t argv0 _ (NeedsValue i)); auto; [| |discriminate].
  - eapply (C75_missing_value lb c ss); eauto.
  - cbn [message]. destruct (opt_desc c t i o (proj1 (proj2 Hf)) (proj1 Hsp)) as (h & ->). cbn [bind].
    rewrite (pretty_opt o h name Hkn). cbn [bind]. now apply printf_ok.
Qed.
Print Assumptions C111_missing_value_partial.
Theorem C111_bad_value_partial : forall w debug cs msvc lb c t argv0 ss args sp i o n v p rest name,
  (0 < lb)%Z -> cfg_ok c -> texts_fit w c t argv0 ->
  says lb c ss args -> spelled c sp i o n -> takes (o_kind o) = Some p ->
  o_kind o <> KOption PBool -> ((exists p, o_kind o = KRepeat p) \/ gives i ss = []) ->
  ~ In 0%N v -> (forall x, ~ reads_as lb p v x) ->
  known_as o name -> printable (lit "Argument '" ++ name ++ lit "' did not recognize value: " ++ v) ->
  (no_help_word c (args ++ (lead sp ++ n) :: v :: rest) ->
   exists st, main w debug cs msvc lb c t (init c) (argv0 :: args ++ (lead sp ++ n) :: v :: rest)
     = Ok (false, complaint t argv0 (lit "Argument '" ++ name ++ lit "' did not recognize value: " ++ v), st))
  /\ (forall body, attached (inline_values c) body n v -> no_help_word c (args ++ (lead sp ++ body) :: rest) ->
   exists st, main w debug cs msvc lb c t (init c) (argv0 :: args ++ (lead sp ++ body) :: rest)
     = Ok (false, complaint t argv0 (lit "Argument '" ++ name ++ lit "' did not recognize value: " ++ v), st)).
Proof.
  intros w debug cs msvc lb c t argv0 ss args sp i o n v p rest name Hlb Hok Hf Hs Hsp Ht Hk Hg Hz Hr Hkn Hp.
  assert (Hm : message debug msvc (ucfg_of c t []) (InvalidValue false i v) = Ok (lit "Argument '" ++ name ++ lit "' did not recognize value: " ++ v)).
  { cbn [message]. destruct (opt_desc c t i o (proj1 (proj2 Hf)) (proj1 Hsp)) as (h & ->). cbn [bind].
    rewrite (pretty_opt o h name Hkn). cbn [bind]. now apply printf_ok. }
  destruct (C75_unreadable_value lb c ss args sp i o n v p rest Hlb Hok Hs Hsp Ht Hk Hg Hz Hr) as [H1 H2].
  split; [intros Hh|intros body Hb Hh]; (apply (reported w debug cs msvc lb c t argv0 _ (InvalidValue false i v)); auto; discriminate).
Qed.
Print Assumptions C111_bad_value_partial.
Theorem C111_value_on_flag_partial : forall w debug cs msvc lb c t argv0 ss args sp i o n v body rest name,
  (0 < lb)%Z -> cfg_ok c -> texts_fit w c t argv0 -> no_help_word c (args ++ (lead sp ++ body) :: rest) ->
  says lb c ss args -> spelled c sp i o n -> attached (inline_values c) body n v ->
  takes (o_kind o) = None -> gives i ss = [] ->
  known_as o name -> printable (lit "Argument '" ++ name ++ lit "' did not recognize value: " ++ v) ->
  exists st, main w debug cs msvc lb c t (init c) (argv0 :: args ++ (lead sp ++ body) :: rest)
    = Ok (false, complaint t argv0 (lit "Argument '" ++ name ++ lit "' did not recognize value: " ++ v), st).
Proof.
  intros w debug cs msvc lb c t argv0 ss args sp i o n v body rest name Hlb Hok Hf Hh Hs Hsp Ha Hk Hg Hkn Hp.
  apply (reported w debug cs msvc lb c t argv0 _ (InvalidValue false i v)); auto; [| |discriminate].
  - eapply (C75_value_on_flag lb c ss); eauto.
  - cbn [message]. destruct (opt_desc c t i o (proj1 (proj2 Hf)) (proj1 Hsp)) as (h & ->). cbn [bind].
    rewrite (pretty_opt o h name Hkn). cbn [bind]. now apply printf_ok.
Qed.
Print Assumptions C111_value_on_flag_partial.
Theorem C111_positionals_partial : forall w debug cs msvc lb c t argv0 ss args name h,
  (0 < lb)%Z -> cfg_ok c -> texts_fit w c t argv0 -> says lb c ss args ->
  nth_error (t_poss t) (length (placed ss)) = Some (name, h) ->
  (* one is missing *)
  (no_help_word c args -> printable (lit "Missing value for '" ++ name ++ lit "'.") ->
   exists st, main w debug cs msvc lb c t (init c) (argv0 :: args)
     = Ok (false, complaint t argv0 (lit "Missing value for '" ++ name ++ lit "'."), st))
  (* one cannot be read *)
  /\ (forall a p rest, ~ option_like c a -> nth_error (positionals c) (length (placed ss)) = Some p -> ~ In 0%N a ->
      (forall x, ~ reads_as lb p a x) -> no_help_word c (args ++ a :: rest) ->
      printable (lit "Argument '" ++ name ++ lit "' did not recognize value: " ++ a) ->
      exists st, main w debug cs msvc lb c t (init c) (argv0 :: args ++ a :: rest)
        = Ok (false, complaint t argv0 (lit "Argument '" ++ name ++ lit "' did not recognize value: " ++ a), st)).
Proof.
  intros w debug cs msvc lb c t argv0 ss args name h Hlb Hok Hf Hs Hn. split.
  - intros Hh Hp. apply (reported w debug cs msvc lb c t argv0 _ (MissingPositional (length (placed ss)))); auto; [| |discriminate].
    + apply C75_missing_positional; auto. rewrite <- (proj1 Hf). apply nth_error_Some. congruence.
    + cbn [message]. rewrite (pos_desc c t _ name h Hn). cbn [bind pretty_name desc_pos u_name fst]. now apply printf_ok.
  - intros a p rest Ho Hp Hz Hr Hh Hpr.
    apply (reported w debug cs msvc lb c t argv0 _ (InvalidValue true (length (placed ss)) a)); auto; [| |discriminate].
    + eapply C75_unreadable_positional; eauto.
    + cbn [message]. rewrite (pos_desc c t _ name h Hn). cbn [bind pretty_name desc_pos u_name fst]. now apply printf_ok.
Qed.
Print Assumptions C111_positionals_partial.
Theorem C111_extra_argument_partial : forall w debug cs msvc lb c t argv0 ss args a rest,
  (0 < lb)%Z -> cfg_ok c -> texts_fit w c t argv0 -> no_help_word c (args ++ a :: rest) ->
  says lb c ss args -> ~ option_like c a ->
  length (placed ss) = length (positionals c) -> collect_extra c = false ->
  exists st, main w debug cs msvc lb c t (init c) (argv0 :: args ++ a :: rest)
    = Ok (false, complaint t argv0 (lit "Unrecognized extra arguments at end of command."), st).
Proof.
  intros w debug cs msvc lb c t argv0 ss args a rest Hlb Hok Hf Hh Hs Ho Hp Hc.
  apply (reported w debug cs msvc lb c t argv0 _ UnrecognizedExtra); auto; [|discriminate].
  eapply C75_extra_argument; eauto.
Qed.
Print Assumptions C111_extra_argument_partial.
(** A command line that is accepted prints nothing. *)
Theorem C111_accepted_silent_partial : forall w debug cs msvc lb c t argv0 ss args,
  (0 < lb)%Z -> cfg_ok c -> help_ok c -> says lb c ss args -> length (placed ss) = length (positionals c) ->
  exists st, main w debug cs msvc lb c t (init c) (argv0 :: args) = Ok (true, [], st) /\ holds c ss st.
Proof.
  intros w debug cs msvc lb c t argv0 ss args Hlb Hok Hh Hs Hp.
  destruct (C73_parse_assigns lb c ss args Hlb Hok Hh Hs Hp) as (st & E & H). exists st. split; [|exact H].
  rewrite main_parse, E. reflexivity.
Qed.
Print Assumptions C111_accepted_silent_partial.

(** REFUTED: the reason is not shown when "-h" or "--help" is anywhere among the arguments - also as the value of an option,
    or behind "--": usage() prints what it prints when there is no error at all. *)
Theorem C111_help_word_hides_error_refuted : forall w debug cs msvc lb c t argv0 args e st m,
  help c <> None -> In (lit "-h") args \/ In (lit "--help") args ->
  parse lb c (init c) args = Ok (false, st) -> error st = Some e -> message debug msvc (ucfg_of c t []) e = Ok m ->
  main w debug cs msvc lb c t (init c) (argv0 :: args)
  = do out <- usage w debug cs (ucfg_of c t []) (argv0 :: args); Ok (false, out, st).
Proof.
  intros w debug cs msvc lb c t argv0 args e st m Hc Hh Hp He Hm. rewrite main_parse, Hp. cbn [bind]. unfold show_usage, error_text.
  rewrite He, Hm. cbn [bind]. rewrite (hidden w debug cs c t argv0 args m Hc Hh). reflexivity.
Qed.
Print Assumptions C111_help_word_hides_error_refuted.
(** REFUTED: an error that was reported once is reported again by usage() after a later command line was accepted. *)
Theorem C111_stale_error_refuted : forall w debug cs msvc lb c t argv0 args st st' e m,
  texts_fit w c t argv0 -> no_help_word c args -> error st = Some e -> message debug msvc (ucfg_of c t []) e = Ok m -> m <> [] ->
  parse lb c (reset c st) args = Ok (true, st') ->
  show_usage w debug cs msvc c t st' (argv0 :: args) = Ok (complaint t argv0 m).
Proof.
  intros w debug cs msvc lb c t argv0 args st st' e m Hf Hh He Hm Hn Hp. unfold show_usage, error_text.
  rewrite (parse_true_error _ _ _ _ _ Hp). change (error (reset c st)) with (error st). rewrite He, Hm. cbn [bind].
  now apply shown.
Qed.
Print Assumptions C111_stale_error_refuted.

(** A parser with an option that takes a string, a number, a repeatable one, a flag and a positional. *)
Definition report_cfg : cfg :=
  Cfg [help_option; Opt (Some (lit "o")) (Some (lit "out")) (KOption PStr) None; Opt (Some (lit "n")) None (KOption PInt) None;
       Opt None (Some (lit "define")) (KRepeat PStr) None; Opt (Some (lit "v")) (Some (lit "verbose")) KToggle (Some (VBool false))]
      [PStr] false false false true (Some 0).
Definition report_texts : texts :=
  Texts [(lit "file", Some (lit "The input."))]
    [Some (lit "Display this help menu."); Some (lit "Output."); Some (lit "Number."); Some (lit "Definition."); Some (lit "Talk.")]
    [] [] [].
Definition report_main (args : list str) : outcome (bool * str) :=
  match main 64 true true false 64 report_cfg report_texts (init report_cfg) (lit "prog" :: args) with
  | Ok (b, out, _) => Ok (b, out) | Fault f => Fault f | Diverge => Diverge
  end.
Example C111_nonvacuous :
  texts_fit 64 report_cfg report_texts (lit "prog")
  /\ report_main [lit "-o"; lit "x"; lit "f"; lit "--bogus"] =
     Ok (false, unlines [lit "Usage: prog [-h] file"; lit "error: Unrecognized option: --bogus"])
  /\ report_main [lit "-o"; lit "x"; lit "f"; lit "--out=y"] =
     Ok (false, unlines [lit "Usage: prog [-h] file"; lit "error: Option 'out' was specified more than once."])
  /\ report_main [lit "f"; lit "-n"] =
     Ok (false, unlines [lit "Usage: prog [-h] file"; lit "error: Option 'n' needs a value."])
  /\ report_main [lit "f"; lit "-n"; lit "x1"] =
     Ok (false, unlines [lit "Usage: prog [-h] file"; lit "error: Argument 'n' did not recognize value: x1"])
  /\ report_main [lit "f"; lit "--verbose=yes"] =
     Ok (false, unlines [lit "Usage: prog [-h] file"; lit "error: Argument 'verbose' did not recognize value: yes"])
  /\ report_main [lit "-v"] =
     Ok (false, unlines [lit "Usage: prog [-h] file"; lit "error: Missing value for 'file'."])
  /\ report_main [lit "f"; lit "g"] =
     Ok (false, unlines [lit "Usage: prog [-h] file"; lit "error: Unrecognized extra arguments at end of command."])
  /\ report_main [lit "f"; lit "-v"] = Ok (true, []).
Proof.
  split; [split; [reflexivity|split; [reflexivity|vm_compute; reflexivity]]|].
  repeat (split; [vm_compute; reflexivity|]). vm_compute. reflexivity.
Qed.
(** "-h" as the value of --out, and behind "--": the mistake is not shown; the output is that of "prog --help". *)
Example C111_hidden_value :
  report_main [lit "--out"; lit "-h"; lit "f"; lit "--bogus"] = report_main [lit "--help"]
  /\ report_main [lit "--"; lit "-h"] = report_main [lit "--help"]
  /\ exists out, report_main [lit "--help"] = Ok (false, out).
Proof. split; [vm_compute; reflexivity|]. split; [vm_compute; reflexivity|]. eexists. vm_compute. reflexivity. Qed.
