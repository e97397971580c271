(** C107-C109: the overloads of parse(), the options of a parser, several parsers in one program. *)
From Coq Require Import Ascii String.
From Verif Require Import Base ArgModel ArgSpec ArgProofs1 ArgProps ArgEntryModel ArgEntrySpec ArgEntryProofs.
Local Open Scope nat_scope.
Local Open Scope list_scope.
Local Notation length := List.length.

(** * C107: every overload of parse() reads the same command line *)
Lemma pointers_some args : pointers (map Some args) = Ok args.
Proof. induction args as [|a args IH]; cbn; [reflexivity|]. now rewrite IH. Qed.
Lemma copy_argv_slice : forall mid pre post, copy_argv (pre ++ mid ++ post) (length pre) (length mid) = Ok mid.
Proof.
  induction mid as [|a mid IH]; intros pre post; cbn [copy_argv length]; [reflexivity|].
  unfold slot_get. rewrite nth_error_app2, Nat.sub_diag by lia. cbn.
  specialize (IH (pre ++ [a]) post). rewrite <- app_assoc, app_length in IH. cbn in IH. now rewrite IH.
Qed.
Lemma copy_va_some args rest : copy_va (map Some args ++ None :: rest) = Ok (map Some args).
Proof. induction args as [|a args IH]; cbn; [reflexivity|]. now rewrite IH. Qed.
Lemma c_str_plain s : ~ In 0%N s -> c_str s = s.
Proof.
  induction s as [|x s IH]; cbn; [reflexivity|]. intros H. destruct (N.eqb_spec x 0); [exfalso; auto|]. rewrite IH; auto.
Qed.
Lemma pointers_strings (args : list str) : pointers (map (fun s => Some (c_str s)) args) = Ok (map c_str args).
Proof. rewrite <- pointers_some, map_map. reflexivity. Qed.

(** main's argc and argv (the program name first, a null pointer last), a vector of pointers, a vector of strings
    and a null-terminated argument list: the outcome is the same, from every state of every parser. *)
Theorem C107_overloads_agree_partial : forall lb c st prog args rest,
  parse_main lb c st (1 + length args) (Some prog :: map Some args ++ [None]) = parse lb c st args
  /\ parse_pointers lb c st (map Some args) = parse lb c st args
  /\ parsev lb c st (map Some args ++ None :: rest) = parse lb c st args
  /\ (Forall (fun a => ~ In 0%N a) args -> parse_strings lb c st args = parse lb c st args).
Proof.
  intros. unfold parse_main, parse_pointers, parsev, parse_strings. split; [|split; [|split]].
  - replace (1 + length args - 1) with (length (map (@Some str) args)) by (rewrite map_length; lia).
    pose proof (copy_argv_slice (map Some args) [Some prog] [None]) as E. cbn [app length] in E. rewrite E. cbn [bind].
    now rewrite pointers_some.
  - now rewrite pointers_some.
  - rewrite copy_va_some. cbn [bind]. now rewrite pointers_some.
  - intros F. rewrite pointers_strings. cbn [bind]. f_equal. induction F; cbn; [reflexivity|]. now rewrite c_str_plain, IHF.
Qed.
Print Assumptions C107_overloads_agree_partial.
(** With the program started as "prog args...", everything C73 says of the arguments holds of parse(argc, argv). *)
Theorem C107_from_main_partial : forall lb c ss prog args,
  (0 < lb)%Z -> cfg_ok c -> help_ok c -> says lb c ss args -> length (placed ss) = length (positionals c) ->
  exists st, parse_main lb c (init c) (1 + length args) (Some prog :: map Some args ++ [None]) = Ok (true, st) /\ holds c ss st.
Proof.
  intros lb c ss prog args H1 H2 H3 H4 H5. destruct (C107_overloads_agree_partial lb c (init c) prog args []) as [-> _].
  now apply C73_parse_assigns.
Qed.
Print Assumptions C107_from_main_partial.
(** No arguments: argc = 0 (argv may be empty), argc = 1, parsev(nullptr). *)
Theorem C107_no_arguments_partial : forall lb c st argv rest,
  parse_main lb c st 0 argv = parse lb c st [] /\ parse_main lb c st 1 argv = parse lb c st []
  /\ parsev lb c st (None :: rest) = parse lb c st [].
Proof. intros. split; [|split]; reflexivity. Qed.
Print Assumptions C107_no_arguments_partial.
(** A std::string with a NUL inside is cut there: whatever follows the NUL is never seen. *)
Theorem C107_embedded_nul_refuted : forall lb c st before a tail after,
  ~ In 0%N a ->
  parse_strings lb c st (before ++ (a ++ 0%N :: tail) :: after) = parse_strings lb c st (before ++ a :: after).
Proof.
  intros. unfold parse_strings. rewrite !pointers_strings, !map_app. cbn [map].
  replace (c_str (a ++ 0%N :: tail)) with (c_str a); [reflexivity|]. rewrite c_str_plain by auto.
  induction a as [|x a IH]; cbn; [reflexivity|].
  destruct (N.eqb_spec x 0); [exfalso; apply H; now left|]. f_equal. apply IH. intros I. apply H. now right.
Qed.
Print Assumptions C107_embedded_nul_refuted.
Example C107_nul_observable :
  let c := Cfg [] [PStr] false false false false None in
  exists st, parse_strings 64 c (init c) [lit "a" ++ 0%N :: lit "b"] = Ok (true, st) /\ pvals st = [Some (VStr (lit "a"))].
Proof. eexists. split; [vm_compute; reflexivity|reflexivity]. Qed.
(** A list of arguments that is not terminated by a null pointer is read past its end. *)
Theorem C107_unterminated : forall lb c st args, parsev lb c st (map Some args) = Fault OutOfBounds.
Proof.
  intros. unfold parsev. replace (copy_va (map Some args)) with (@Fault (list (option str)) OutOfBounds); [reflexivity|].
  symmetry. induction args as [|a args IH]; cbn; [reflexivity|]. now rewrite IH.
Qed.
Print Assumptions C107_unterminated.
Example C107_main_example : forall prog,
  exists st, parse_main 64 demo (init demo) 4 [Some prog; Some (lit "--num=5"); Some (lit "in"); Some (lit "42"); None] = Ok (true, st)
    /\ parsev 64 demo (init demo) [Some (lit "--num=5"); Some (lit "in"); Some (lit "42"); None] = Ok (true, st)
    /\ parse_strings 64 demo (init demo) [lit "--num=5"; lit "in"; lit "42"] = Ok (true, st).
Proof. intros. eexists. split; [vm_compute; reflexivity|]. split; vm_compute; reflexivity. Qed.

(** * C108: the options of a parser *)
(** After any history, parser number [k] has: the help option if it was constructed with a help text, then the static
    options constructed before it, then those constructed with it, in order; likewise positionals; and exactly the
    modes asked of it.  (Static options constructed later are not among them.) *)
Theorem C108_registration : forall lb es w rs k p,
  run lb start es = Ok (w, rs) -> nth_error (w_parsers w) k = Some p ->
  exists pre hlp post, es = pre ++ EParser hlp :: post /\ parsers_made pre = k
    /\ options (cfg_of w p) = (if hlp then [help_option] else []) ++ static_opts pre ++ own_opts k post
    /\ positionals (cfg_of w p) = static_poss pre ++ own_poss k post
    /\ help (cfg_of w p) = (if hlp then Some 0 else None)
    /\ (inline_values (cfg_of w p) = true <-> asked k InlineValues post)
    /\ (allow_slashes (cfg_of w p) = true <-> asked k AllowSlashes post)
    /\ (collect_extra (cfg_of w p) = true <-> asked k CollectExtra post)
    /\ (allow_pass (cfg_of w p) = true <-> asked k AllowPassthrough post)
    /\ help_ok (cfg_of w p).
Proof.
  intros lb es w rs k p H Hp. pose proof (run_known lb es [] start w rs known_start H) as K. cbn [app] in K.
  destruct (kn_p _ _ K k p Hp) as (pre & hlp & post & E & Ek & R1 & R2 & R3 & R4).
  exists pre, hlp, post. rewrite options_cfg, positionals_cfg, R1, R2. cbn [help inline_values allow_slashes collect_extra allow_pass cfg_of].
  rewrite R3. do 5 (split; [first [exact E|exact Ek|reflexivity]|]).
  split; [exact (R4 InlineValues)|]. split; [exact (R4 AllowSlashes)|]. split; [exact (R4 CollectExtra)|]. split; [exact (R4 AllowPassthrough)|].
  intros i Hi. rewrite options_cfg, R1. cbn in Hi. rewrite R3 in Hi. destruct hlp; [|discriminate]. injection Hi as <-.
  eexists. split; [reflexivity|]. split; reflexivity.
Qed.
Print Assumptions C108_registration.
(** Such a history and parser number determine the split. *)
Theorem C108_registration_unique : forall es pre hlp post pre' hlp' post',
  es = pre ++ EParser hlp :: post -> es = pre' ++ EParser hlp' :: post' -> parsers_made pre = parsers_made pre' ->
  pre = pre' /\ hlp = hlp' /\ post = post'.
Proof.
  intros es pre. revert es. induction pre as [|e pre IH]; intros es hlp post [|e' pre'] hlp' post' H H' N; subst es; cbn [app] in *.
  - injection H' as -> ->. auto.
  - injection H' as <- E. cbn in N. discriminate.
  - injection H' as -> E. cbn in N. discriminate.
  - injection H' as <- E. destruct (IH (pre ++ EParser hlp :: post) hlp post pre' hlp' post') as (-> & -> & ->); auto.
    destruct e; cbn in N; auto.
Qed.
Print Assumptions C108_registration_unique.

(** When several options have the same name, the first registered has it: here a toggle or stop option under its
    long name, whatever follows it in the list. *)
Theorem C108_first_registered_wins : forall lb c i o n,
  nth_error (options c) i = Some o -> o_kind o = KToggle \/ o_kind o = KStop -> o_long o = Some n ->
  (forall j oj, j < i -> nth_error (options c) j = Some oj -> o_long oj <> Some n) ->
  n <> [] -> ~ In c_eq n -> ~ In c_colon n -> positionals c = [] ->
  exists b, parse lb c (init c) [lit "--" ++ n] =
    Ok (b, PState (upd (vals (init c)) i [VBool (negb (match o_default o with Some (VBool b) => b | _ => false end))]) [] [] [] false None).
Proof.
  intros lb c i o n Hi Hk Hl Hf Hn He Hc Hp.
  assert (Sch : forall ch s, ~ In ch s -> strchr s ch = None).
  { intros ch s. induction s as [|x s IH]; cbn; auto. intros H. destruct (N.eqb_spec x ch); [exfalso; auto|]. now rewrite IH by auto. }
  assert (A1 : strchr (lit "--" ++ n) c_eq = None) by (cbn; now rewrite Sch).
  assert (A2 : strchr (lit "--" ++ n) c_colon = None) by (cbn; now rewrite Sch).
  assert (Seq : forall m s, m = s <-> length m = length s /\ strncmp_eq (length s) m s = true).
  { induction m as [|x m IH]; intros [|y s]; cbn; try (split; [discriminate|intros [? ?]; discriminate]); [tauto|].
    rewrite andb_true_iff, N.eqb_eq. specialize (IH s). split.
    - intros E. injection E as -> E. apply IH in E. destruct E as [-> E]. auto.
    - intros [L [-> E]]. f_equal. apply IH. auto. }
  assert (F : find_idx (fun o => name_matches (o_long o) n (length n)) (options c) = Some i).
  { clear -Hi Hl Hf Seq. revert i Hi Hf. induction (options c) as [|x os IH]; intros [|i] Hi Hf; cbn in *; try discriminate.
    - injection Hi as ->. rewrite Hl. cbn. destruct (proj1 (Seq n n) eq_refl) as [_ ->]. now rewrite Nat.eqb_refl.
    - assert (N : o_long x <> Some n) by (apply (Hf 0); auto; lia).
      replace (name_matches (o_long x) n (length n)) with false.
      + rewrite (IH i); auto. intros j oj Hj Ej. apply (Hf (S j)); auto. lia.
      + symmetry. unfold name_matches. destruct (o_long x) as [m|]; auto. apply not_true_is_false. intros T.
        apply andb_true_iff in T. destruct T as [T1 T2]. apply Nat.eqb_eq in T1. apply N. f_equal. apply Seq. split; auto. }
  assert (R : resolve c (lit "--" ++ n) = Ok (Some (i, None, None))).
  { unfold resolve. rewrite A1, A2. replace (if inline_values c then @None nat else None) with (@None nat) by now destruct (inline_values c).
    cbn [bind]. replace (N.eqb (chr (lit "--" ++ n) 0) c_dash && N.eqb (chr (lit "--" ++ n) 1) c_dash) with true by reflexivity.
    unfold ptr_add, size_sub. cbn [length lit app list_ascii_of_string map].
    change (length (lit "--" ++ n)) with (S (S (length n))). cbn [Nat.leb bind]. change (skipn 2 (lit "--" ++ n)) with n. rewrite Nat.sub_0_r || idtac.
    replace (S (S (length n)) - 2) with (length n) by lia. cbn [bind]. unfold find_long. cbn [skipn]. rewrite F. cbn [bind]. unfold kind_at. rewrite Hi. cbn [bind].
    destruct Hk as [-> | ->]; reflexivity. }
  assert (V : nth_error (vals (init c)) i = Some []) by (cbn; rewrite nth_error_map, Hi; reflexivity).
  assert (H : read_head c (init c) 0 (lit "--" ++ n) = Ok (HOpt i None)).
  { unfold read_head. replace (streq (lit "--" ++ n) (lit "--")) with false.
    2: { symmetry. unfold streq. destruct list_eq_dec as [E|]; auto. exfalso. apply Hn. change (lit "--" ++ n = lit "--" ++ []) in E. now apply app_inv_head in E. }
    rewrite andb_false_r. cbn [has_pass init]. replace (is_option c (lit "--" ++ n)) with true by reflexivity.
    rewrite R. cbn [bind]. unfold kind_at. rewrite Hi. cbn [bind]. unfold slot_get. fold (init c). rewrite V. cbn [bind].
    destruct Hk as [-> | ->]; reflexivity. }
  assert (C : consume lb o None = Ok (Some (VBool (negb (match o_default o with Some (VBool b) => b | _ => false end))))).
  { unfold consume. destruct Hk as [-> | ->]; reflexivity. }
  assert (O : can_omit (o_kind o) = true) by (destruct Hk as [-> | ->]; reflexivity).
  unfold parse. cbn [loop]. rewrite H. cbn [bind]. rewrite Hi, O, C. cbn [bind]. rewrite Hp. cbn [length].
  replace (negb (halts (o_kind o)) && (0 <? 0)) with false by now rewrite andb_false_r.
  unfold store. rewrite Hi, V. eexists. f_equal. f_equal. cbn. rewrite Hp. f_equal. f_equal. destruct Hk as [-> | ->]; reflexivity.
Qed.
Print Assumptions C108_first_registered_wins.

(** * C109: parsers are independent of each other *)
(** A parser constructed when there is no static option behaves, whatever else the program does with other parsers,
    as it would alone: same options, same values, same results. *)
Theorem C109_no_interference_partial : forall lb pre hlp post w rs,
  run lb start (pre ++ EParser hlp :: post) = Ok (w, rs) -> static_opts pre = [] -> static_poss pre = [] ->
  exists p, nth_error (w_parsers w) (parsers_made pre) = Some p
    /\ alone lb (parsers_made pre) (fresh hlp) (init (fresh hlp)) post
       = Ok (cfg_of w p, view w p, results_of (parsers_made pre) rs).
Proof.
  intros lb pre hlp post w rs H S1 S2. rewrite run_app in H.
  destruct (run lb start pre) as [[w1 rs1]| |] eqn:E1; cbn [bind] in H; try discriminate.
  pose proof (run_known lb pre [] start w1 rs1 known_start E1) as K1. cbn [app] in K1.
  cbn [run] in H. rewrite step_parser in H. cbn [bind] in H. set (w2 := World _ _ _ _ _) in *.
  destruct (run lb w2 post) as [[w3 rs3]| |] eqn:E3; cbn [bind] in H; try discriminate. injection H as <- <-.
  assert (Es : w_sopts w1 = [] /\ w_sposs w1 = []).
  { split.
    - pose proof (kn_s _ _ K1) as Q. rewrite S1 in Q. destruct (w_sopts w1); [reflexivity|discriminate].
    - pose proof (kn_sp _ _ K1) as Q. rewrite S2 in Q. destruct (w_sposs w1); [reflexivity|discriminate]. }
  destruct Es as [Es1 Es2].
  assert (A2 : apart_w w2).
  { apply (apart_step lb w1 (EParser hlp) w2 None); [apply (kn_apart _ _ K1)|]. now rewrite step_parser. }
  assert (Hk : length (w_parsers w1) = parsers_made pre) by apply (kn_n _ _ K1).
  assert (Hp : nth_error (w_parsers w2) (parsers_made pre) = Some (made w1 hlp)).
  { cbn. rewrite nth_error_app2, Hk, Nat.sub_diag by lia. reflexivity. }
  assert (Pr : private w2 (made w1 hlp)).
  { split; cbn; rewrite ?Es1, ?Es2; intros i I I'; exact I'. }
  destruct (sim_run lb post w2 w3 rs3 _ _ A2 Hp Pr E3) as (p' & Q1 & Q2). exists p'. split; [exact Q1|].
  assert (R0 : results_of (parsers_made pre) (rs1 ++ rs3) = results_of (parsers_made pre) rs3).
  { assert (Z : results_of (parsers_made pre) rs1 = []).
    { eapply results_before; [exact E1|]. cbn. lia. }
    clear -Z. induction rs1 as [|[k b] rs1 IH]; cbn in *; auto. destruct (k =? parsers_made pre); [discriminate|auto]. }
  rewrite R0, <- Q2. f_equal.
  - unfold fresh, cfg_of. cbn. rewrite Es1, Es2. destruct hlp; cbn; [|reflexivity].
    unfold opt_at. cbn. rewrite app_nth2, Nat.sub_diag by lia. reflexivity.
  - unfold fresh, view, init. cbn. rewrite Es1, Es2. destruct hlp; cbn; [|reflexivity].
    unfold opt_at. cbn. rewrite app_nth2, Nat.sub_diag by lia. reflexivity.
Qed.
Print Assumptions C109_no_interference_partial.

Definition num : optd := Opt (Some (lit "n")) (Some (lit "num")) (KOption PInt) (Some (VInt 0)).
(** Static options are shared: what one parser has read is already specified for the next one, and reset() on one
    parser takes away the other's values. *)
Theorem C109_statics_shared_refuted :
  (exists w, run 64 start [EStaticOpt num; EParser false; EParser false; EParse 0 [lit "--num=1"]; EParse 1 [lit "--num=1"]]
     = Ok (w, [(0, true); (1, false)]))
  /\ (exists w p, run 64 start [EStaticOpt num; EParser false; EParser false; EParse 0 [lit "--num=1"]; EReset 1]
     = Ok (w, [(0, true)]) /\ nth_error (w_parsers w) 0 = Some p /\ vals (view w p) = [[]])
  /\ (exists w p, run 64 start [EStaticOpt num; EParser false; EParse 0 [lit "--num=1"]; EParser false; EParse 1 []]
     = Ok (w, [(0, true); (1, true)]) /\ nth_error (w_parsers w) 1 = Some p /\ vals (view w p) = [[VInt 1]]).
Proof.
  split; [eexists; vm_compute; reflexivity|].
  split; (eexists; eexists; split; [vm_compute; reflexivity|]; split; reflexivity).
Qed.
Print Assumptions C109_statics_shared_refuted.
(** Non-vacuity: two parsers with their own options, a later static option, interleaved calls. *)
Example C109_two_parsers :
  exists w, run 64 start [EParser true; EParser false; EOpt 0 num; EOpt 1 num; EStaticOpt num; EParse 0 [lit "--num=1"]; EParser true;
                          EParse 2 [lit "-n"; lit "7"]; EParse 1 [lit "--num=2"]; EReset 0; EParse 0 [lit "-n"; lit "3"]; EParse 1 [lit "-n"; lit "4"]]
    = Ok (w, [(0, true); (2, true); (1, true); (0, true); (1, false)])
    /\ map (fun p => vals (view w p)) (w_parsers w) = [[[]; [VInt 3]]; [[VInt 2]]; [[]; [VInt 7]]].
Proof. eexists. split; [vm_compute; reflexivity|reflexivity]. Qed.
(** -h given by the user as a toggle of his own never takes effect in a parser with a help text: help is first. *)
Example C108_help_first : let mine := Opt (Some (lit "h")) (Some (lit "help")) KToggle (Some (VBool false)) in
  exists w p, run 64 start [EStaticOpt mine; EParser true; EParse 0 [lit "--help"]] = Ok (w, [(0, false)])
    /\ nth_error (w_parsers w) 0 = Some p /\ vals (view w p) = [[VBool true]; []].
Proof. eexists. eexists. split; [vm_compute; reflexivity|]. split; reflexivity. Qed.
