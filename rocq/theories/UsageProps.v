(** Property theorem C82: Parser::usage. *)
From Coq Require Import String.
From Verif Require Import Base ArgModel StrModel StrSpec StrProofs StrSplit StrProps UsageModel UsageSpec UsageProofs.
Local Open Scope nat_scope.
Local Open Scope list_scope.

(** * C82 *)
(** The help column of every option: the lines are the words of the help text (the text cut at its spaces), all of
    them and in order, joined by spaces; a line has at most 50 characters unless it is a single word; a line is only
    broken where the next word does not fit.  Joined again, the lines are the help text, character for character. *)
Theorem C82_help_lines : forall w debug o h,
  u_help o = Some h -> good_text w h ->
  exists words gs lines, help_cells w debug o = Ok lines
    /\ splits space h words /\ wrapped words gs /\ concat gs = words
    /\ lines = map (intercalate space) gs
    /\ Forall (fun g => g <> [] /\ (length (intercalate space g) <= 50 \/ exists x, g = [x])) gs
    /\ intercalate space lines = h.
Proof.
  intros w debug o h Hh Hg. destruct (help_ok_cells w debug o) as (helps & H1 & h' & words & gs & H2 & H3 & H4 & ->).
  { exists h. auto. }
  assert (h' = h) by congruence. subst h'. exists words, gs, (map (intercalate space) gs).
  split; [exact H1|]. split; [exact H3|]. split; [exact H4|]. split; [now apply wrapped_concat|]. split; [reflexivity|]. split.
  - clear - H4. induction H4; constructor; auto.
  - rewrite (wrapped_text words gs H4). destruct H3 as [[-> ->]|[_ H3]]; [reflexivity|]. now apply cuts_intercalate in H3.
Qed.
Print Assumptions C82_help_lines.
(** The wrapping is determined by these conditions. *)
Theorem C82_wrapping_unique : forall words gs gs', wrapped words gs -> wrapped words gs' -> gs = gs'.
Proof. intros words gs gs' H H'. exact (wrapped_unique words gs H gs' H'). Qed.
Print Assumptions C82_wrapping_unique.

(** The whole text printed by usage() (no error, or help asked for): the banner, the usage line, and the three
    sections; each option or positional is shown by its left cells and its help lines. *)
Theorem C82_usage_text : forall w debug cs c argv0 args,
  Forall (good_named w) (u_pos c) -> Forall (good_option w cs) (u_opts c) -> Forall (good_named w) (u_extra c) ->
  u_error c = [] \/ (u_helpopt c = true /\ (In (lit "-h") args \/ In (lit "--help") args)) ->
  (N.of_nat (length (intercalate space (lit "Usage:" :: argv0 ::
     match u_line c with [] => lit "[-h]" :: map (fun o => match u_name o with Some n => n | None => [] end) (u_pos c) | l => [l] end))) < 2 ^ w)%N ->
  exists uline tpos topt textra,
    uline = intercalate space (lit "Usage:" :: argv0 ::
      match u_line c with [] => lit "[-h]" :: map (fun o => match u_name o with Some n => n | None => [] end) (u_pos c) | l => [l] end)
    /\ Forall2 (entry name_left) (u_pos c) tpos
    /\ Forall2 (entry option_left) (u_opts c) topt
    /\ Forall2 (entry name_left) (u_extra c) textra
    /\ usage w debug cs c (argv0 :: args) = Ok (unlines (
         match u_banner c with [] => [] | b => [b; []] end
         ++ [uline]
         ++ heading (nonempty (u_pos c)) (lit "positional arguments:") ++ concat tpos
         ++ heading (nonempty (u_opts c)) (lit "optional arguments:") ++ concat topt
         ++ concat textra)).
Proof.
  intros w debug cs c argv0 args Hp Ho Hx Herr Hlen.
  set (names := map (fun o => match u_name o with Some n => n | None => [] end) (u_pos c)).
  set (more := match u_line c with [] => lit "[-h]" :: names | l => [l] end) in *.
  assert (Hul : usage_line w debug c (Some (argv0 :: args)) = Ok (ln (intercalate space (lit "Usage:" :: argv0 :: more)))).
  { unfold usage_line. cbn [slot_get nth_error bind].
    assert (Hm : (match u_line c with
                  | [] => do names <- mapM (fun o => get (u_name o)) (u_pos c); Ok (lit "[-h]" :: names)
                  | l => Ok [l]
                  end) = Ok more).
    { unfold more. destruct (u_line c); [|reflexivity].
      assert (E : mapM (fun o => get (u_name o)) (u_pos c) = Ok names).
      { unfold names. clear - Hp. induction Hp as [|o os Ho Hp IH]; [reflexivity|]. destruct Ho as (_ & n & Hn & _).
        cbn. rewrite Hn. cbn [get bind]. rewrite IH. reflexivity. }
      rewrite E. reflexivity. }
    rewrite Hm. cbn [bind]. rewrite (join_ok w debug _ (c_str (lit " ")) space cstr_space); [reflexivity|].
    exact Hlen. }
  destruct (mapM_ok name_cells name_left (u_pos c)) as (pc & Epc & Hpc);
    [intros o Hin; apply (name_cells_ok w); rewrite Forall_forall in Hp; auto|].
  destruct (mapM_ok (option_cells w debug cs) option_left (u_opts c)) as (oc & Eoc & Hoc);
    [intros o Hin; apply option_cells_ok; rewrite Forall_forall in Ho; auto|].
  destruct (mapM_ok name_cells name_left (u_extra c)) as (xc & Exc & Hxc);
    [intros o Hin; apply (name_cells_ok w); rewrite Forall_forall in Hx; auto|].
  assert (Hhelp : forall os, Forall (good_help w) os -> exists hs, mapM (help_cells w debug) os = Ok hs /\ Forall2 help_right os hs).
  { intros os Hos. apply mapM_ok. intros o Hin. apply help_ok_cells. rewrite Forall_forall in Hos. auto. }
  assert (Gp : Forall (good_help w) (u_pos c)) by (eapply Forall_impl; [|exact Hp]; intros o Hq; apply Hq).
  assert (Go : Forall (good_help w) (u_opts c)) by (eapply Forall_impl; [|exact Ho]; intros o Hq; apply Hq).
  assert (Gx : Forall (good_help w) (u_extra c)) by (eapply Forall_impl; [|exact Hx]; intros o Hq; apply Hq).
  destruct (Hhelp (u_pos c ++ u_opts c ++ u_extra c)) as (hs & Ehs & Hhs);
    [apply Forall_app; split; [exact Gp|]; apply Forall_app; auto|].
  apply Forall2_app_inv_l in Hhs as (hp & hox & Hhp & Hhox & ->). apply Forall2_app_inv_l in Hhox as (ho & hx & Hho & Hhx & ->).
  assert (Np : Forall (fun o => negb (is_null (u_name o)) = true) (u_pos c)).
  { eapply Forall_impl; [|exact Hp]. intros o (_ & n & -> & _). reflexivity. }
  assert (Nx : Forall (fun o => negb (is_null (u_name o)) = true) (u_extra c)).
  { eapply Forall_impl; [|exact Hx]. intros o (_ & n & -> & _). reflexivity. }
  assert (No : Forall (fun o => negb (is_null (u_name o)) = false) (u_opts c)).
  { eapply Forall_impl; [|exact Ho]. intros o (_ & -> & _). reflexivity. }
  (* the sections *)
  set (nm := fun o => negb (is_null (u_name o))) in *.
  assert (E : combine (map nm (u_pos c ++ u_opts c ++ u_extra c)) (combine (pc ++ oc ++ xc) (hp ++ ho ++ hx))
     = combine (map nm (u_pos c)) (combine pc hp) ++ combine (map nm (u_opts c)) (combine oc ho)
       ++ combine (map nm (u_extra c)) (combine xc hx) ++ []).
  { pose proof (F2_len' _ _ _ Hpc) as L1. pose proof (F2_len' _ _ _ Hhp) as L2.
    pose proof (F2_len' _ _ _ Hoc) as L3. pose proof (F2_len' _ _ _ Hho) as L4.
    rewrite !map_app. rewrite !(combine_app pc), !(combine_app oc) by congruence.
    rewrite combine_app by (rewrite map_length, combine_length; lia).
    rewrite combine_app by (rewrite map_length, combine_length; lia). now rewrite app_nil_r. }
  destruct (section_rows name_left true (u_pos c) pc hp
              (combine (map nm (u_opts c)) (combine oc ho) ++ combine (map nm (u_extra c)) (combine xc hx) ++ [])
              false Np Hpc Hhp (or_introl eq_refl)) as (tpos & E1 & T1).
  destruct (optional_section (u_opts c) oc ho (combine (map nm (u_extra c)) (combine xc hx) ++ []) No Hoc Hho) as (topt & E2 & T2).
  destruct (section_rows name_left true (u_extra c) xc hx [] (nonempty (u_opts c)) Nx Hxc Hhx (or_introl eq_refl)) as (textra & E3 & T3).
  exists (intercalate space (lit "Usage:" :: argv0 :: more)), tpos, topt, textra.
  split; [reflexivity|]. split; [exact T1|]. split; [exact T2|]. split; [exact T3|].
  unfold usage.
  assert (Eg : negb (is_empty (u_error c)) && (negb (u_helpopt c) || negb (wants_help (argv0 :: args))) = false).
  { destruct Herr as [->|[-> Hin]]; [reflexivity|]. cbn [negb orb].
    assert (Ew : wants_help (argv0 :: args) = true).
    { unfold wants_help. cbn [tl]. apply existsb_exists. destruct Hin as [Hin|Hin]; eexists; (split; [exact Hin|]); reflexivity. }
    rewrite Ew. apply andb_false_r. }
  rewrite Eg, Hul. cbn [bind]. rewrite Epc, Eoc, Exc. cbn [bind].
  set (banner := if is_empty (u_banner c) then [] else ln (u_banner c) ++ ln []).
  assert (Eb : banner = unlines (match u_banner c with [] => [] | b => [b; []] end)).
  { unfold banner. destruct (u_banner c); [reflexivity|]. unfold unlines. cbn [is_empty map concat]. rewrite app_nil_r. reflexivity. }
  assert (Elast : print_entries [] (nonempty (u_opts c)) = []) by reflexivity.
  destruct (is_empty (pc ++ oc ++ xc)) eqn:Ee.
  - destruct pc; [|discriminate]. destruct oc; [|discriminate]. destruct xc; [|discriminate].
    assert (Epos : u_pos c = []) by (inversion Hpc; reflexivity). assert (Eopt : u_opts c = []) by (inversion Hoc; reflexivity).
    assert (Eext : u_extra c = []) by (inversion Hxc; reflexivity).
    rewrite Epos in *. rewrite Eopt in *. rewrite Eext in *. inversion T1; subst. inversion T2; subst. inversion T3; subst.
    rewrite Eb. unfold heading. cbn [nonempty concat app]. rewrite !unlines_app. unfold unlines at 3. cbn [map concat]. now rewrite app_nil_r.
  - rewrite Ehs. cbn [bind]. f_equal. unfold nm in E, E1, E2, E3. rewrite E. rewrite E1, E2, E3, Elast, Eb, !unlines_app, !app_nil_r.
    f_equal. f_equal; [unfold unlines; cbn [map concat]; now rewrite app_nil_r|].
    assert (Eh : (if is_empty (u_pos c) then [] else ln [] ++ ln (lit "positional arguments:"))
               = unlines (heading (nonempty (u_pos c)) (lit "positional arguments:"))) by (destruct (u_pos c); reflexivity).
    rewrite Eh. now rewrite <- !app_assoc.
Qed.
Print Assumptions C82_usage_text.
(** With an error and no request for help only the usage line and the error are printed. *)
Theorem C82_error_text : forall w debug cs c argv0 args uline,
  u_error c <> [] -> (u_helpopt c = false \/ (~ In (lit "-h") args /\ ~ In (lit "--help") args)) ->
  Forall (fun o => u_name o <> None) (u_pos c) ->
  uline = intercalate space (lit "Usage:" :: argv0 ::
    match u_line c with [] => lit "[-h]" :: map (fun o => match u_name o with Some n => n | None => [] end) (u_pos c) | l => [l] end) ->
  (N.of_nat (length uline) < 2 ^ w)%N ->
  usage w debug cs c (argv0 :: args) = Ok (unlines [uline; lit "error: " ++ u_error c]).
Proof.
  intros w debug cs c argv0 args uline He Hh Hn -> Hl. unfold usage.
  assert (Eg : negb (is_empty (u_error c)) && (negb (u_helpopt c) || negb (wants_help (argv0 :: args))) = true).
  { destruct (u_error c); [easy|]. cbn [is_empty negb andb]. destruct Hh as [->|[H1 H2]]; [reflexivity|].
    apply orb_true_iff. right. apply negb_true_iff. unfold wants_help. cbn [tl].
    destruct (existsb (fun a => streq a (lit "-h") || streq a (lit "--help")) args) eqn:E; [|reflexivity].
    apply existsb_exists in E as (a & Ha & E). apply orb_prop in E as [E|E]; unfold streq in E;
      destruct (list_eq_dec N.eq_dec a _) as [->|]; try discriminate; contradiction. }
  rewrite Eg. unfold usage_line. cbn [slot_get nth_error bind].
  set (names := map (fun o => match u_name o with Some n => n | None => [] end) (u_pos c)) in *.
  assert (Em : (match u_line c with
                | [] => do names <- mapM (fun o => get (u_name o)) (u_pos c); Ok (lit "[-h]" :: names)
                | l => Ok [l]
                end) = Ok (match u_line c with [] => lit "[-h]" :: names | l => [l] end)).
  { destruct (u_line c); [|reflexivity].
    assert (E : mapM (fun o => get (u_name o)) (u_pos c) = Ok names).
    { unfold names. clear - Hn. induction Hn as [|o os Ho Hn IH]; [reflexivity|].
      cbn. destruct (u_name o); [|contradiction]. cbn [get bind]. rewrite IH. reflexivity. }
    rewrite E. reflexivity. }
  rewrite Em. cbn [bind].
  rewrite (join_ok w debug _ (c_str (lit " ")) space cstr_space Hl). cbn [bind]. unfold unlines. cbn [map concat].
  now rewrite app_nil_r.
Qed.
Print Assumptions C82_error_text.

Definition demo_usage : ucfg :=
  UC [UD None None (Some (lit "file")) (Some (lit "The input.")) false false]
     [UD (Some (lit "h")) (Some (lit "help")) None (Some (lit "Display this help menu.")) true true;
      UD (Some (lit "o")) (Some (lit "out-dir")) None (Some (lit "Where the results go. This text is long enough that it needs a second line.")) false false]
     [] [] [] [] true.
Example C82_nonvacuous :
  Forall (good_named 64) (u_pos demo_usage) /\ Forall (good_option 64 true) (u_opts demo_usage)
  /\ usage 64 true true demo_usage [lit "prog"] = Ok (unlines
     [lit "Usage: prog [-h] file"; []; lit "positional arguments:";
      lit "  file                      The input."; []; lit "optional arguments:";
      lit "  -h, --help                Display this help menu.";
      lit "  -o, --out-dir=OUT_DIR     Where the results go. This text is long enough";
      lit "                            that it needs a second line."]).
Proof.
  split; [|split; [|vm_compute; reflexivity]].
  - assert (GT : forall t : str, existsb (N.eqb 0) t = false -> (N.of_nat (length t) <? 2 ^ 64)%N = true -> good_text 64 t).
    { intros t H1 H2. split; [|now apply N.ltb_lt]. intros Hin.
      assert (E : existsb (N.eqb 0) t = true) by (apply existsb_exists; exists 0%N; auto). congruence. }
    constructor; [|constructor]. split.
    + eexists. split; [reflexivity|]. apply GT; reflexivity.
    + eexists. split; [reflexivity|]. apply GT; reflexivity.
  - assert (GT : forall t : str, existsb (N.eqb 0) t = false -> (N.of_nat (length t) <? 2 ^ 64)%N = true -> good_text 64 t).
    { intros t H1 H2. split; [|now apply N.ltb_lt]. intros Hin.
      assert (E : existsb (N.eqb 0) t = true) by (apply existsb_exists; exists 0%N; auto). congruence. }
    assert (LT : forall (t : str) k, forallb (fun b => b <? k)%N t = true -> Forall (fun b => b < k)%N t).
    { intros t k Hb. apply Forall_forall. intros b Hin. rewrite forallb_forall in Hb. now apply N.ltb_lt, Hb. }
    constructor; [|constructor; [|constructor]];
      (split; [eexists; split; [reflexivity|]; apply GT; reflexivity|]; split; [reflexivity|]; split; [left; discriminate|];
       intros n [[= <-]|[= <-]]; (split; [discriminate|]); (split; [apply GT; reflexivity|]);
       (split; [apply LT; reflexivity|right; apply LT; reflexivity])).
Qed.
