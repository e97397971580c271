(** Property theorems C73-C81: am-argparser.h. *)
From Coq Require Import String.
From Verif Require Import Base ArgModel ArgSpec ArgProofs1 ArgProofs2 ArgProofs3 ArgProofs4.
Local Open Scope nat_scope.
Local Open Scope list_scope.

(** ** Glue *)
Definition finish (c : cfg) (r : lres) : outcome (bool * pstate) :=
  match r with
  | LErr st => Ok (false, st)
  | LDone positional halted st =>
      if negb halted && (positional <? List.length (positionals c))
      then Ok (false, set_error st (MissingPositional positional))
      else Ok (negb (help_wanted c st), st)
  end.
Lemma parse_finish lb c st args : parse lb c st args = do r <- loop lb c args 0 st; finish c r.
Proof. reflexivity. Qed.
(** After any said prefix. *)
Lemma said lb c ss args : (0 < lb)%Z -> cfg_ok c -> says lb c ss args ->
  exists st, fits c st /\ holds c ss st /\ length (placed ss) <= length (positionals c) /\
  forall rest, loop lb c (args ++ rest) 0 (init c) = loop lb c rest (length (placed ss)) st.
Proof.
  intros Hlb Hok Hs. destruct (says_loop lb Hlb c Hok ss args [] Hs) as (st & H1 & H2 & H3 & H4).
  exists st. split; [exact H2|]. split; [exact H3|]. split; [exact H4|]. intros rest.
  destruct (says_loop lb Hlb c Hok ss args rest Hs) as (st' & H1' & H2' & H3' & H4'). rewrite H1'. f_equal.
  destruct H3 as (A1 & A2 & A3 & A4 & A5 & A6 & A7), H3' as (B1 & B2 & B3 & B4 & B5 & B6 & B7).
  destruct st as [v p e q hp er], st' as [v' p' e' q' hp' er']. cbn in *. subst. f_equal.
  apply nth_ext with (d := []) (d' := []); [congruence|]. intros i Hi. rewrite B2 in Hi.
  specialize (A1 i Hi). specialize (B1 i Hi). rewrite (nth_error_nth _ _ _ A1), (nth_error_nth _ _ _ B1). reflexivity.
Qed.
Lemma holds_help c ss st : help_ok c -> holds c ss st -> (forall i, help c = Some i -> gives i ss = []) -> help_wanted c st = false.
Proof.
  intros Hh Hs Hg. unfold help_wanted. destruct (help c) as [i|] eqn:E; [|reflexivity].
  destruct (Hh i E) as (o & Ho & _ & Hd). rewrite Ho.
  assert (Hi : i < length (options c)) by (apply nth_error_Some; congruence).
  rewrite (proj1 Hs i Hi), (Hg i eq_refl). cbn. now rewrite Hd.
Qed.
Lemma says_no_stop lb c ss args i o : says lb c ss args -> nth_error (options c) i = Some o -> o_kind o = KStop -> gives i ss = [].
Proof.
  intros (parts & Hw & _ & _ & _) Ho Hk. revert parts Hw. induction ss as [|s ss IH]; intros parts Hw; [reflexivity|].
  destruct parts as [|part parts]; [inversion Hw|]. apply F2_cons in Hw as [Hw1 Hw2]. cbn [gives flat_map].
  change (flat_map _ ss) with (gives i ss). rewrite (IH parts Hw2), app_nil_r.
  destruct s as [j x|k x|a]; try reflexivity. destruct (Nat.eqb_spec j i) as [->|]; [|reflexivity]. exfalso.
  inversion Hw1 as [sp i' o' n v p x' Hs Ht|sp i' o' n v p x' Hs Ht|sp i' o' n v p x' Hs Ht|sp i' o' ch v p x' Hg Ht
    |sp i' o' n x' Hs Hv Hk'|i' o' n Hs Hk'|k p a x' H1 H2 H3|]; subst.
  all: try (destruct Hg as (_ & _ & Hs & _)).
  all: pose proof (proj1 Hs) as E; rewrite Ho in E; injection E as <-.
  all: try (rewrite Hk in Ht; discriminate).
  - congruence.
  - congruence.
Qed.
Lemma says_help_false lb c ss args st : help_ok c -> says lb c ss args -> holds c ss st -> help_wanted c st = false.
Proof.
  intros Hh Hs Ho. apply (holds_help c ss st Hh Ho). intros i Hi. destruct (Hh i Hi) as (o & H1 & H2 & _).
  eapply says_no_stop; eauto.
Qed.

(** * C73 *)
(** Any command line written from a list of settings (options in any of the spellings, flags, --no-flags,
    positionals, extras, in any order with positionals numbered in sequence) that places all positionals parses
    successfully, and afterwards the parser holds exactly these values: each option the values given to it in order
    (so none, hence its default, if it is not mentioned), each positional its value, the extras, no error. *)
Theorem C73_parse_assigns : forall lb c ss args,
  (0 < lb)%Z -> cfg_ok c -> help_ok c -> says lb c ss args -> length (placed ss) = length (positionals c) ->
  exists st, parse lb c (init c) args = Ok (true, st) /\ holds c ss st.
Proof.
  intros lb c ss args Hlb Hok Hh Hs Hp. destruct (said lb c ss args Hlb Hok Hs) as (st & Hf & Ho & _ & Hl).
  exists st. split; [|exact Ho]. rewrite parse_finish. specialize (Hl []). rewrite app_nil_r in Hl. rewrite Hl. cbn [loop bind finish].
  rewrite Hp, Nat.ltb_irrefl, andb_false_r, (says_help_false lb c ss args st Hh Hs Ho). reflexivity.
Qed.
Print Assumptions C73_parse_assigns.
(** What value() then returns: the given value, or the default of an option that was not mentioned. *)
Theorem C73_values_and_defaults : forall c ss st i o,
  holds c ss st -> nth_error (options c) i = Some o ->
  exists vs, nth_error (vals st) i = Some vs
  /\ (gives i ss = [] -> opt_value o vs = o_default o) /\ (forall x, gives i ss = [x] -> opt_value o vs = Some x)
  /\ ((exists p, o_kind o = KRepeat p) -> vs = gives i ss).
Proof.
  intros c ss st i o Hs Ho. assert (Hi : i < length (options c)) by (apply nth_error_Some; congruence).
  exists (gives i ss). split; [apply Hs; exact Hi|]. split; [intros ->; reflexivity|]. split; [intros x ->; reflexivity|auto].
Qed.
Print Assumptions C73_values_and_defaults.
(** The options' constructors: in a debug build the names are non-empty and do not start with a dash, and "-s" and
    "s", "--long" and "long" mean the same. *)
Theorem C73_option_names : forall short long k d o,
  make_option true short long k d = Ok o ->
  (short <> None \/ long <> None) /\
  (forall n, o_short o = Some n \/ o_long o = Some n -> n <> [] /\ chr n 0 <> c_dash) /\
  (forall s, short = Some s -> o_short o = Some s \/ exists n, s = lit "-" ++ n /\ o_short o = Some n) /\
  (forall s, long = Some s -> o_long o = Some s \/ exists n, s = lit "--" ++ n /\ o_long o = Some n).
Proof.
  intros short long k d o H. unfold make_option, assert_ in H.
  destruct (negb (is_null short) || negb (is_null long)) eqn:E1; cbn [bind andb negb] in H; [|discriminate].
  destruct (good_form (option_map strip_short short)) eqn:E2; cbn [bind andb negb] in H; [|discriminate].
  destruct (good_form (option_map strip_long long)) eqn:E3; cbn [bind andb negb] in H; [|discriminate].
  injection H as <-. cbn [o_short o_long].
  assert (Hg : forall f n, good_form f = true -> f = Some n -> n <> [] /\ chr n 0 <> c_dash).
  { intros f n Hf ->. cbn [good_form] in Hf. apply andb_prop in Hf as [H1 H2]. apply negb_true_iff in H1, H2.
    apply N.eqb_neq in H1, H2. split; [intros ->; now apply H1|exact H2]. }
  split; [destruct short; [left; discriminate|destruct long; [right; discriminate|discriminate E1]]|].
  split; [intros n [Hn|Hn]; [exact (Hg _ n E2 Hn)|exact (Hg _ n E3 Hn)]|]. split.
  - intros s ->. cbn [option_map]. unfold strip_short. destruct (N.eqb_spec (chr s 0) c_dash) as [E|]; [|auto].
    right. destruct s as [|x s]; [discriminate|]. cbn in E. subst x. exists s. split; reflexivity.
  - intros s ->. cbn [option_map]. unfold strip_long.
    destruct (N.eqb_spec (chr s 0) c_dash) as [E|]; [|cbn [andb]; auto].
    destruct (N.eqb_spec (chr s 1) c_dash) as [E'|]; [|cbn [andb]; auto]. cbn [andb].
    right. destruct s as [|x [|y s]]; try discriminate. cbn in E, E'. subst x y. exists s. split; reflexivity.
Qed.
Print Assumptions C73_option_names.

(** ... and those are the only demands of the constructors: every other pair of names is accepted. *)
Theorem C73_option_names_accepted : forall short long k d,
  short <> None \/ long <> None ->
  (forall s, short = Some s -> (exists n, s = lit "-" ++ n /\ n <> [] /\ chr n 0 <> c_dash) \/ s <> [] /\ chr s 0 <> c_dash) ->
  (forall s, long = Some s -> (exists n, s = lit "--" ++ n /\ n <> [] /\ chr n 0 <> c_dash) \/ s <> [] /\ chr s 0 <> c_dash) ->
  (forall s, short = Some s \/ long = Some s -> ~ In 0%N s) ->
  exists o, make_option true short long k d = Ok o.
Proof.
  intros short long k d Hn Hs Hl Hz. unfold make_option.
  assert (E1 : negb (is_null short) || negb (is_null long) = true).
  { destruct short; [reflexivity|]. destruct long; [reflexivity|]. destruct Hn; congruence. }
  assert (G : forall n : str, n <> [] -> chr n 0 <> c_dash -> ~ In 0%N n -> good_form (Some n) = true).
  { intros [|x n] H1 H2 H3; [congruence|]. cbn in H2 |- *. apply andb_true_intro. split; apply negb_true_iff, N.eqb_neq; [|exact H2].
    intros ->. apply H3. now left. }
  assert (E2 : good_form (option_map strip_short short) = true).
  { destruct short as [s|]; [|reflexivity]. cbn [option_map]. specialize (Hz s (or_introl eq_refl)).
    destruct (Hs s eq_refl) as [(n & -> & H1 & H2)|[H1 H2]].
    - cbn [lit app] in Hz |- *. apply G; auto. intros Q. apply Hz. now right.
    - unfold strip_short. rewrite (proj2 (N.eqb_neq _ _) H2). now apply G. }
  assert (E3 : good_form (option_map strip_long long) = true).
  { destruct long as [s|]; [|reflexivity]. cbn [option_map]. specialize (Hz s (or_intror eq_refl)).
    destruct (Hl s eq_refl) as [(n & -> & H1 & H2)|[H1 H2]].
    - cbn [lit app] in Hz |- *. apply G; auto. intros Q. apply Hz. now right; right.
    - unfold strip_long. rewrite (proj2 (N.eqb_neq _ _) H2). cbn [andb]. now apply G. }
  unfold assert_. rewrite E1, E2, E3. cbn. eauto.
Qed.
Print Assumptions C73_option_names_accepted.

(** A parser with a bit of everything. *)
Definition demo : cfg :=
  Cfg [Opt (Some (lit "h")) (Some (lit "help")) KStop (Some (VBool false));
       Opt (Some (lit "s")) (Some (lit "str")) (KOption PStr) (Some (VStr (lit "dflt")));
       Opt None (Some (lit "num")) (KOption PInt) None;
       Opt (Some (lit "w")) (Some (lit "warn")) KEnable (Some (VBool true));
       Opt (Some (lit "t")) None KToggle (Some (VBool false));
       Opt (Some (lit "D")) (Some (lit "def")) (KRepeat PStr) None;
       Opt (Some (lit "b")) (Some (lit "bool")) (KOption PBool) None]
      [PStr; PInt] false false true true (Some 0).
Lemma demo_ok : cfg_ok demo /\ help_ok demo.
Proof.
  split; [split|].
  - intros o n Ho Hn. cbn in Ho.
    repeat (destruct Ho as [<-|Ho]; [destruct Hn as [Hn|Hn]; cbn in Hn; try discriminate; injection Hn as <-;
      (split; [discriminate|]); (split; [discriminate|]); cbn; unfold c_eq, c_colon;
      (split; [intuition discriminate|]); (split; [intros; intuition discriminate|intuition discriminate])|]).
    destruct Ho.
  - intros i j oi oj n Hi Hj H1 H2.
    do 7 (destruct i as [|i]; [cbn in Hi; injection Hi as <-; cbn in H1; try discriminate; injection H1 as <-;
      do 7 (destruct j as [|j]; [cbn in Hj; injection Hj as <-; cbn in H2; try discriminate; reflexivity|]);
      destruct j; discriminate|]). destruct i; discriminate.
  - intros i j oi oj n Hi Hj H1 H2.
    do 7 (destruct i as [|i]; [cbn in Hi; injection Hi as <-; cbn in H1; try discriminate; injection H1 as <-;
      do 7 (destruct j as [|j]; [cbn in Hj; injection Hj as <-; cbn in H2; try discriminate; reflexivity|]);
      destruct j; discriminate|]). destruct i; discriminate.
  - intros o o' n Ho Ho' Hk Hn. cbn in Ho.
    repeat (destruct Ho as [<-|Ho]; [cbn in Hk; try discriminate|]); [|destruct Ho]. cbn in Hn. injection Hn as <-.
    cbn in Ho'. repeat (destruct Ho' as [<-|Ho']; [cbn; discriminate|]). destruct Ho'.
  - intros i Hi. injection Hi as <-. eexists. split; [reflexivity|]. split; reflexivity.
Qed.
Definition demo_settings : list setting :=
  [Give 5 (VStr (lit "a=1")); Place 0 (VStr (lit "in")); Give 3 (VBool false); Give 5 (VStr (lit "b"));
   Give 4 (VBool true); Place 1 (VInt 42); Give 2 (VInt (-7)); Also (lit "more")].
Definition demo_args : list str :=
  [lit "--def=a=1"; lit "in"; lit "--no-warn"; lit "-D"; lit "b"; lit "-t"; lit "42"; lit "--num"; lit " -7"; lit "more"].
Lemma demo_says : says 64 demo demo_settings demo_args.
Proof.
  exists [[lit "--def=a=1"]; [lit "in"]; [lit "--no-warn"]; [lit "-D"; lit "b"]; [lit "-t"]; [lit "42"];
          [lit "--num"; lit " -7"]; [lit "more"]].
  assert (Hi42 : integer (lit "42") 42).
  { apply (integer_text [] [] (lit "42") 42 42); [constructor| |auto].
    change (lit "42") with ([Z.to_N (48 + 4)] ++ [Z.to_N (48 + 2)]). change 42%Z with (10 * 4 + 2)%Z.
    apply decimal_more; [|lia]. apply decimal_one. lia. }
  assert (Hi7 : integer (lit " -7") (-7)).
  { apply (integer_text [32%N] (lit "-") (lit "7") 7 (-7)); [constructor; [cbn; auto|constructor]| |auto].
    change (lit "7") with [Z.to_N (48 + 7)]. apply decimal_one. lia. }
  split; [|split; [reflexivity|split]].
  - repeat constructor.
    + eapply (w_equals 64 demo Long 5 _ (lit "def") (lit "a=1")); [split; reflexivity|reflexivity|constructor; discriminate|discriminate].
    + eapply w_place; [reflexivity|intros [H|[H _]]; discriminate|constructor; discriminate].
    + eapply (w_no 64 demo 3 _ (lit "warn")); [split; reflexivity|reflexivity].
    + eapply (w_space 64 demo Short 5 _ (lit "D") (lit "b")); [split; reflexivity|reflexivity|constructor; discriminate].
    + eapply (w_flag 64 demo Short 4 _ (lit "t")); [split; reflexivity|reflexivity|discriminate].
    + eapply w_place; [reflexivity|intros [H|[H _]]; discriminate|].
      change 42%Z with (squeeze 64 42). now constructor.
    + eapply (w_space 64 demo Long 2 _ (lit "num") (lit " -7")); [split; reflexivity|reflexivity|].
      change (-7)%Z with (squeeze 64 (-7)). now constructor.
    + intros [H|[H _]]; discriminate.
  - cbn. auto 10.
  - intros i o Hi Hr. do 7 (destruct i as [|i]; [cbn; injection Hi as <-; try lia; exfalso; eapply Hr; reflexivity|]).
    destruct i; discriminate.
Qed.
Example C73_nonvacuous : exists st, parse 64 demo (init demo) demo_args = Ok (true, st) /\ holds demo demo_settings st.
Proof.
  destruct demo_ok as [H1 H2]. exact (C73_parse_assigns 64 demo _ _ eq_refl H1 H2 demo_says eq_refl).
Qed.
(** Observation (outside C73's spellings): with inline values, -s:v is not usable for a value containing '='; the
    short option swallows the ':' as part of the value. *)
Definition inline_demo : cfg :=
  Cfg [Opt (Some (lit "s")) None (KOption PStr) None] [] true false false false None.
Example observation_inline_colon_value_with_equals :
  exists st, parse 64 inline_demo (init inline_demo) [lit "-s:a=b"] = Ok (true, st) /\ vals st = [[VStr (lit ":a=b")]].
Proof. eexists. split; vm_compute; reflexivity. Qed.

(** * C74 *)
(** Refuted: "--no-X" where neither X nor no-X is a long option dereferences a null pointer, whatever was said
    before and whatever follows. *)
Theorem C74_no_undefined_behaviour_refuted : forall lb c ss args a rest,
  (0 < lb)%Z -> cfg_ok c -> says lb c ss args -> no_of_unknown c a ->
  parse lb c (init c) (args ++ a :: rest) = Fault NullDeref.
Proof.
  intros lb c ss args a rest Hlb Hok Hs (b & n & -> & Hn & Hun).
  destruct (said lb c ss args Hlb Hok Hs) as (st & Hf & Ho & _ & Hl). rewrite parse_finish, Hl.
  assert (En : name_of (inline_values c) b = n).
  { unfold name_of. destruct Hn as [[v Hv]|[-> Hv]].
    - apply split_body_iff in Hv. now rewrite Hv.
    - now rewrite (proj2 (split_body_none _ _) Hv). }
  assert (E : read_head c st (length (placed ss)) (lead Long ++ no_prefix ++ b) = Fault NullDeref).
  { apply no_unknown_head; auto; rewrite ?En; [apply Ho|intros o Hin; now apply Hun..]. }
  cbn [loop]. rewrite E. reflexivity.
Qed.
Print Assumptions C74_no_undefined_behaviour_refuted.
Example C74_refuted_nonvacuous : no_of_unknown demo (lit "--no-such") /\
  parse 64 demo (init demo) (demo_args ++ [lit "--no-such"]) = Fault NullDeref.
Proof.
  assert (H : no_of_unknown demo (lit "--no-such")).
  { exists (lit "such"), (lit "such"). split; [reflexivity|]. split.
    - right. split; [reflexivity|]. intros m v [(E & _)|(E & _)]; [|discriminate].
      assert (Hin : In c_eq (lit "such")) by (rewrite E; apply in_or_app; right; now left).
      cbn in Hin. unfold c_eq in Hin. intuition discriminate.
    - intros o Ho. cbn in Ho. repeat (destruct Ho as [<-|Ho]; [split; discriminate|]). destruct Ho. }
  split; [exact H|]. exact (C74_no_undefined_behaviour_refuted 64 demo _ _ _ [] eq_refl (proj1 demo_ok) demo_says H).
Qed.
(** That is the only way: from any state of the parser and for any arguments, parse either returns, or some argument
    is such a "--no-X" (and the fault is that dereference). *)
Theorem C74_only_no_prefix_partial : forall lb c st args,
  (0 < lb)%Z -> cfg_ok c -> fits c st -> Forall (fun a => ~ In 0%N a) args ->
  (exists b st', parse lb c st args = Ok (b, st'))
  \/ (parse lb c st args = Fault NullDeref /\ exists a, In a args /\ no_of_unknown c a).
Proof.
  intros lb c st args Hlb Hok Hf Hz. rewrite parse_finish.
  destruct (loop_outcome lb Hlb c Hok (length args) args st 0 (le_n _) Hf Hz) as [[r ->]|[-> (pre & a & post & -> & Ha)]].
  - left. cbn [bind]. destruct r as [s|p h s]; cbn [finish]; [eauto|].
    destruct (negb h && (p <? length (positionals c))); eauto.
  - right. split; [reflexivity|]. exists a. split; [apply in_or_app; right; now left|].
    destruct Ha as (b & E1 & E2 & E3). exists b, (name_of (inline_values c) b). split; [exact E1|]. split.
    + unfold named, name_of. destruct (split_body (inline_values c) b) as [[n v]|] eqn:E.
      * left. exists v. now apply split_body_iff.
      * right. split; [reflexivity|]. now apply split_body_none.
    + intros o Ho. split; [now apply (by_long_none c _)|now apply (by_long_none c _)].
Qed.
Print Assumptions C74_only_no_prefix_partial.
(** In particular no argument vector without "--no-" faults, in any history of parse and reset calls. *)
Theorem C74_histories_partial : forall lb c cs st args,
  (0 < lb)%Z -> cfg_ok c -> reaches lb c (init c) cs st ->
  Forall (fun a => ~ In 0%N a) args -> (forall a b, In a args -> a <> lit "--no-" ++ b) ->
  exists b st', parse lb c st args = Ok (b, st').
Proof.
  intros lb c cs st args Hlb Hok Hr Hz Hno.
  assert (Hf : fits c st).
  { assert (G : forall s0 cs s1, reaches lb c s0 cs s1 -> fits c s0 -> fits c s1).
    { induction 1 as [s|s a b s1 cs' s2 Hp H IH|s cs' s2 H IH]; intros Hf; auto.
      - apply IH. eapply parse_fits; eauto.
      - apply IH. now apply reset_fits. }
    eapply G; [exact Hr|]. apply fits_init. }
  destruct (C74_only_no_prefix_partial lb c st args Hlb Hok Hf Hz) as [H|[_ (a & Ha & b & n & -> & _)]]; [exact H|].
  exfalso. exact (Hno _ b Ha eq_refl).
Qed.
Print Assumptions C74_histories_partial.

(** * C75 *)
(** Exactly which command lines are accepted: those of the grammar [reads], with all positionals present unless a stop
    option was met, and no help request.  Partial: the grammar has to include what the property says must be rejected:
    a boolean option with an attached value that is no boolean literal, and integers outside the range of int. *)
Theorem C75_accepts_exactly_partial : forall lb c st args st',
  (0 < lb)%Z -> cfg_ok c -> fits c st -> Forall (fun a => ~ In 0%N a) args ->
  (parse lb c st args = Ok (true, st') <->
   exists pos halted, reads lb c st 0 args st' pos halted /\ (halted = true \/ length (positionals c) <= pos)
     /\ help_wanted c st' = false).
Proof.
  intros lb c st args st' Hlb Hok Hf Hz. rewrite parse_finish. split.
  - destruct (loop lb c args 0 st) as [[s|p h s]| |] eqn:E; cbn [bind finish]; try discriminate.
    destruct (negb h && (p <? length (positionals c))) eqn:Eh; [discriminate|]. intros H.
    assert (Hh : help_wanted c s = false) by (destruct (help_wanted c s); [discriminate|reflexivity]).
    assert (s = st') by congruence. subst s. exists p, h. split; [|split; [|exact Hh]].
    + eapply (loop_reads lb Hlb c Hok (length args)); eauto.
    + destruct h; [now left|]. right. cbn [negb andb] in Eh. apply Nat.ltb_ge in Eh. exact Eh.
  - intros (p & h & Hr & Hp & Hh). destruct (reads_loop lb Hlb c Hok _ _ _ _ _ _ Hf Hr) as [-> _]. cbn [bind finish].
    replace (negb h && (p <? length (positionals c))) with false.
    + now rewrite Hh.
    + symmetry. destruct Hp as [->|Hp]; [reflexivity|]. apply Nat.ltb_ge in Hp. rewrite Hp. apply andb_false_r.
Qed.
Print Assumptions C75_accepts_exactly_partial.

(** The classes of malformed command lines, after anything said before and whatever follows. *)
Lemma rejected lb c ss args a rest e : (0 < lb)%Z -> cfg_ok c -> says lb c ss args ->
  (forall st, fits c st -> holds c ss st -> exists st', loop lb c (a :: rest) (length (placed ss)) st = Ok (LErr (set_error st' e))) ->
  rejects lb c (args ++ a :: rest) e.
Proof.
  intros Hlb Hok Hs H. destruct (said lb c ss args Hlb Hok Hs) as (st & Hf & Ho & _ & Hl).
  destruct (H st Hf Ho) as (st' & E). exists (set_error st' e). split; [|reflexivity]. rewrite parse_finish, Hl, E. reflexivity.
Qed.
Lemma err_head lb c st pos a rest e : read_head c st pos a = Ok (HErr e) ->
  loop lb c (a :: rest) pos st = Ok (LErr (set_error st e)).
Proof. intros E. cbn [loop]. now rewrite E. Qed.
Lemma holds_free c ss st i o : holds c ss st -> nth_error (options c) i = Some o ->
  (free st i o <-> (exists p, o_kind o = KRepeat p) \/ gives i ss = []).
Proof.
  intros Hs Ho. assert (Hi : i < length (options c)) by (apply nth_error_Some; congruence).
  unfold free. rewrite (proj1 Hs i Hi). split; (intros [H|H]; [now left|right; congruence]).
Qed.

(** An unknown option. *)
Theorem C75_unknown_option : forall lb c ss args a rest,
  (0 < lb)%Z -> cfg_ok c -> says lb c ss args -> option_like c a ->
  ~ (allow_pass c = true /\ a = lit "--") -> ~ refers c a -> ~ stuck c a ->
  (forall b, a = lit "--no-" ++ b -> exists i o n, negates c a i o n /\ o_kind o <> KEnable) ->
  rejects lb c (args ++ a :: rest) (Unrecognized a).
Proof.
  intros lb c ss args a rest Hlb Hok Hs Ho Hd Hr Hst Hn. apply (rejected lb c ss); auto. intros st Hf Hh.
  exists st. apply err_head. apply unknown_head; auto. apply Hh.
Qed.
Print Assumptions C75_unknown_option.
(** A second value for an option that does not repeat. *)
Theorem C75_repeated_option : forall lb c ss args sp i o n body rest,
  (0 < lb)%Z -> cfg_ok c -> says lb c ss args -> spelled c sp i o n ->
  (body = n \/ exists v, attached (inline_values c) body n v) ->
  (forall p, o_kind o <> KRepeat p) -> gives i ss <> [] ->
  rejects lb c (args ++ (lead sp ++ body) :: rest) (AlreadySpecified i).
Proof.
  intros lb c ss args sp i o n body rest Hlb Hok Hs Hsp Hb Hk Hg. apply (rejected lb c ss); auto. intros st Hf Hh.
  exists st. apply err_head. eapply head_used; eauto; [apply Hh|].
  intros H. apply (holds_free c ss st i o Hh (proj1 Hsp)) in H as [[p H]|H]; [now apply Hk in H|contradiction].
Qed.
Print Assumptions C75_repeated_option.
(** A required value missing at the end. *)
Theorem C75_missing_value : forall lb c ss args sp i o n,
  (0 < lb)%Z -> cfg_ok c -> says lb c ss args -> spelled c sp i o n ->
  takes (o_kind o) <> None -> o_kind o <> KOption PBool -> ((exists p, o_kind o = KRepeat p) \/ gives i ss = []) ->
  rejects lb c (args ++ [lead sp ++ n]) (NeedsValue i).
Proof.
  intros lb c ss args sp i o n Hlb Hok Hs Hsp Hk Hb Hg. apply (rejected lb c ss); auto. intros st Hf Hh.
  exists st. apply (holds_free c ss st i o Hh (proj1 Hsp)) in Hg.
  assert (Hp : has_pass st = false) by apply Hh.
  cbn [loop]. rewrite (head_bare c Hok st _ sp i o n Hf Hp Hsp Hg). cbn [bind]. rewrite (proj1 Hsp).
  destruct (o_kind o) as [[]| | | |]; try reflexivity; cbn in Hk; congruence.
Qed.
Print Assumptions C75_missing_value.
(** A value on an option that takes none. *)
Theorem C75_value_on_flag : forall lb c ss args sp i o n v body rest,
  (0 < lb)%Z -> cfg_ok c -> says lb c ss args -> spelled c sp i o n -> attached (inline_values c) body n v ->
  takes (o_kind o) = None -> gives i ss = [] ->
  rejects lb c (args ++ (lead sp ++ body) :: rest) (InvalidValue false i v).
Proof.
  intros lb c ss args sp i o n v body rest Hlb Hok Hs Hsp Ha Hk Hg. apply (rejected lb c ss); auto. intros st Hf Hh.
  exists st. apply err_head. assert (Hp : has_pass st = false) by apply Hh.
  rewrite (head_attached c Hok st _ sp i o n v body Hf Hp Hsp Ha) by (apply (holds_free c ss st i o Hh (proj1 Hsp)); auto).
  destruct (o_kind o); try discriminate; reflexivity.
Qed.
Print Assumptions C75_value_on_flag.
(** A value that cannot be read, attached or as the next argument (except for a boolean Option, see C80). *)
Theorem C75_unreadable_value : forall lb c ss args sp i o n v p rest,
  (0 < lb)%Z -> cfg_ok c -> says lb c ss args -> spelled c sp i o n -> takes (o_kind o) = Some p ->
  o_kind o <> KOption PBool -> ((exists p, o_kind o = KRepeat p) \/ gives i ss = []) ->
  ~ In 0%N v -> (forall x, ~ reads_as lb p v x) ->
  rejects lb c (args ++ (lead sp ++ n) :: v :: rest) (InvalidValue false i v)
  /\ (forall body, attached (inline_values c) body n v ->
      rejects lb c (args ++ (lead sp ++ body) :: rest) (InvalidValue false i v)).
Proof.
  intros lb c ss args sp i o n v p rest Hlb Hok Hs Hsp Ht Hk Hg Hz Hr.
  assert (Hc : consume lb o (Some v) = Ok None).
  { unfold consume. destruct (policy_consume_cases lb Hlb p v Hz) as [(x & _ & Hx)|[Hx _]]; [now apply Hr in Hx|].
    destruct (o_kind o); cbn in Ht; try discriminate; injection Ht as ->; exact Hx. }
  assert (Ho : can_omit (o_kind o) = false).
  { destruct (o_kind o) as [[]| | | |]; try reflexivity; try discriminate. congruence. }
  assert (Hm : must_omit (o_kind o) = false /\ implied (o_kind o) = None).
  { destruct (o_kind o) as [[]| | | |]; try discriminate; auto. }
  destruct Hm as [Hm1 Hm2]. split.
  - apply (rejected lb c ss); auto. intros st Hf Hh. apply (holds_free c ss st i o Hh (proj1 Hsp)) in Hg.
    assert (Hp : has_pass st = false) by apply Hh. exists st.
    cbn [loop]. rewrite (head_bare c Hok st _ sp i o n Hf Hp Hsp Hg). cbn [bind]. rewrite (proj1 Hsp), Hm2, Hm1, Hc. cbn [bind].
    now rewrite Ho.
  - intros body Ha. apply (rejected lb c ss); auto. intros st Hf Hh. apply (holds_free c ss st i o Hh (proj1 Hsp)) in Hg.
    assert (Hp : has_pass st = false) by apply Hh. exists st.
    cbn [loop]. rewrite (head_attached c Hok st _ sp i o n v body Hf Hp Hsp Ha Hg), Hm1. cbn [bind].
    rewrite (proj1 Hsp), Hc. cbn [bind]. now rewrite Ho.
Qed.
Print Assumptions C75_unreadable_value.
(** A positional that cannot be read. *)
Theorem C75_unreadable_positional : forall lb c ss args a p rest,
  (0 < lb)%Z -> cfg_ok c -> says lb c ss args -> ~ option_like c a ->
  nth_error (positionals c) (length (placed ss)) = Some p -> ~ In 0%N a -> (forall x, ~ reads_as lb p a x) ->
  rejects lb c (args ++ a :: rest) (InvalidValue true (length (placed ss)) a).
Proof.
  intros lb c ss args a p rest Hlb Hok Hs Ho Hp Hz Hr. apply (rejected lb c ss); auto. intros st Hf Hh. exists st.
  assert (E : read_head c st (length (placed ss)) a = Ok (HPos (length (placed ss)) a)).
  { unfold read_head. assert (Hhp : has_pass st = false) by apply Hh.
    rewrite (plain_not_dashes c a Ho), Hhp, (not_option c a Ho).
    replace (length (positionals c) <=? length (placed ss)) with false; [reflexivity|].
    symmetry. apply Nat.leb_gt. apply nth_error_Some. congruence. }
  cbn [loop]. rewrite E. cbn [bind]. rewrite Hp.
  destruct (policy_consume_cases lb Hlb p a Hz) as [(x & _ & Hx)|[Hx _]]; [now apply Hr in Hx|]. rewrite Hx. reflexivity.
Qed.
Print Assumptions C75_unreadable_positional.
(** An extra argument when they are not collected. *)
Theorem C75_extra_argument : forall lb c ss args a rest,
  (0 < lb)%Z -> cfg_ok c -> says lb c ss args -> ~ option_like c a ->
  length (placed ss) = length (positionals c) -> collect_extra c = false ->
  rejects lb c (args ++ a :: rest) UnrecognizedExtra.
Proof.
  intros lb c ss args a rest Hlb Hok Hs Ho Hp Hc. apply (rejected lb c ss); auto. intros st Hf Hh. exists st.
  apply err_head. unfold read_head. assert (Hhp : has_pass st = false) by apply Hh.
  rewrite (plain_not_dashes c a Ho), Hhp, (not_option c a Ho), Hp, Nat.leb_refl, Hc. reflexivity.
Qed.
Print Assumptions C75_extra_argument.
(** A missing positional. *)
Theorem C75_missing_positional : forall lb c ss args,
  (0 < lb)%Z -> cfg_ok c -> says lb c ss args -> length (placed ss) < length (positionals c) ->
  rejects lb c args (MissingPositional (length (placed ss))).
Proof.
  intros lb c ss args Hlb Hok Hs Hp. destruct (said lb c ss args Hlb Hok Hs) as (st & Hf & Ho & _ & Hl).
  specialize (Hl []). rewrite app_nil_r in Hl. eexists. split; [rewrite parse_finish, Hl; cbn [loop bind finish]|].
  - apply Nat.ltb_lt in Hp. rewrite Hp. reflexivity.
  - reflexivity.
Qed.
Print Assumptions C75_missing_positional.
(** Refuted for boolean options (attached garbage is accepted, see C80_no_effect_refuted) and for integers outside
    the range of int (C81_out_of_range_refuted): *)
Theorem C75_malformed_accepted_refuted :
  (exists st, parse 64 demo (init demo) [lit "--bool=garbage"; lit "in"; lit "42"] = Ok (true, st))
  /\ exists st, parse 64 demo (init demo) [lit "--num=99999999999999999999"; lit "in"; lit "42"] = Ok (true, st).
Proof. split; eexists; vm_compute; reflexivity. Qed.
Example C75_nonvacuous :
  rejects 64 demo (demo_args ++ [lit "--nope"; lit "x"]) (Unrecognized (lit "--nope"))
  /\ rejects 64 demo (demo_args ++ [lit "--num=3"]) (AlreadySpecified 2)
  /\ rejects 64 demo (demo_args ++ [lit "--str"]) (NeedsValue 1)
  /\ rejects 64 demo ([lit "-w=1"]) (InvalidValue false 3 (lit "1"))
  /\ rejects 64 demo ([lit "--num"; lit "4x"]) (InvalidValue false 2 (lit "4x"))
  /\ rejects 64 demo ([lit "a"; lit "b"]) (InvalidValue true 1 (lit "b"))
  /\ rejects 64 demo ([lit "a"]) (MissingPositional 1)
  /\ ~ refers demo (lit "--nope") /\ ~ stuck demo (lit "--nope").
Proof.
  repeat (split; [eexists; split; vm_compute; reflexivity|]). split.
  - intros (sp & i & o & n & body & E & [H1 H2] & Hb).
    assert (Hn : In n [lit "h"; lit "help"; lit "s"; lit "str"; lit "num"; lit "w"; lit "warn"; lit "t"; lit "D"; lit "def"; lit "b"; lit "bool"]).
    { assert (Hi : In o (options demo)) by (eapply nth_error_In; eauto). cbn in Hi.
      destruct sp; [| |destruct H2; discriminate];
      repeat (destruct Hi as [<-|Hi]; [cbn in H2; try discriminate; injection H2 as <-; cbn; tauto|]); destruct Hi. }
    cbn in Hn. destruct sp; cbn in E.
    + injection E as <-. destruct Hb as [<-|[v [(E & _)|(E & _)]]]; [|  |discriminate];
        repeat (destruct Hn as [Hn|Hn]; [try discriminate; try (rewrite <- Hn in E; discriminate)|]); destruct Hn.
    + injection E as <-. destruct Hb as [<-|[v [(E & _)|(E & _)]]]; [|  |discriminate];
        repeat (destruct Hn as [Hn|Hn]; [try discriminate; try (rewrite <- Hn in E; discriminate)|]); destruct Hn.
    + discriminate.
  - intros (sp & i & o & ch & v & _ & H & _). discriminate.
Qed.

(** * C76 *)
Lemma list_ext {A} (l l' : list A) : (forall k, nth_error l k = nth_error l' k) -> l = l'.
Proof.
  revert l'. induction l as [|x l IH]; intros [|y l'] H; auto; try (specialize (H 0); discriminate).
  f_equal; [specialize (H 0); cbn in H; congruence|]. apply IH. intros k. exact (H (S k)).
Qed.
(** For every accepted command line: there are arguments [ps] (the positionals) and [es] (the extras), all of them not
    option-like, that occur in this order on the command line, such that the k-th positional holds what the k-th of
    [ps] denotes and extra_args() is [es]. *)
Theorem C76_order_kept : forall lb c args st',
  (0 < lb)%Z -> cfg_ok c -> Forall (fun a => ~ In 0%N a) args -> parse lb c (init c) args = Ok (true, st') ->
  exists ps es xs, subseq (ps ++ es) args /\ Forall (fun a => ~ option_like c a) (ps ++ es)
    /\ extra st' = es /\ length ps = length xs
    /\ (forall k a, nth_error ps k = Some a ->
          exists p x, nth_error (positionals c) k = Some p /\ nth_error xs k = Some x /\ reads_as lb p a x)
    /\ pvals st' = map Some xs ++ repeat None (length (positionals c) - length xs).
Proof.
  intros lb c args st' Hlb Hok Hz H.
  apply (C75_accepts_exactly_partial lb c (init c) args st' Hlb Hok (fits_init c) Hz) in H as (pos & h & Hr & _ & _).
  destruct (reads_loop lb Hlb c Hok _ _ _ _ _ _ (fits_init c) Hr) as [_ [_ Hfp]].
  destruct (reads_order lb c _ _ _ _ _ _ Hr) as (ps & es & xs & I1 & I2 & I3 & I4 & I5 & I6 & I7 & I8).
  cbn [Nat.add] in *. apply F2_len in I3 as Hl.
  assert (Hle : length ps <= length (positionals c)).
  { destruct (length ps) as [|m] eqn:E; [lia|]. destruct (nth_error ps m) as [a|] eqn:Ea; [|apply nth_error_None in Ea; lia].
    destruct (I4 m a Ea) as (p & x & Hp & _). assert (m < length (positionals c)) by (apply nth_error_Some; congruence). lia. }
  exists ps, es, xs. split; [exact I1|]. split; [exact I2|]. split; [exact I6|]. split; [exact Hl|].
  split; [exact I4|]. subst pos.
  apply list_ext. intros k. destruct (Nat.lt_ge_cases k (length xs)) as [Hk|Hk].
  - rewrite nth_error_app1 by (rewrite map_length; exact Hk). rewrite nth_error_map, I7.
    + now rewrite Nat.sub_0_r.
    + lia.
    + cbn. rewrite map_length. lia.
  - rewrite nth_error_app2 by (rewrite map_length; exact Hk). rewrite map_length, I8 by lia. cbn [init pvals].
    rewrite map_none. destruct (Nat.lt_ge_cases k (length (positionals c))) as [Hk2|Hk2].
    + rewrite !nth_error_repeat by lia. reflexivity.
    + rewrite !(proj2 (nth_error_None _ _)) by (rewrite repeat_length; lia). reflexivity.
Qed.
Print Assumptions C76_order_kept.
(** And none is lost: in a command line written from settings, all placed values and extras appear, in order. *)
Theorem C76_nothing_lost : forall lb c ss args,
  (0 < lb)%Z -> cfg_ok c -> help_ok c -> says lb c ss args -> length (placed ss) = length (positionals c) ->
  exists st, parse lb c (init c) args = Ok (true, st) /\ pvals st = map Some (placed ss) /\ extra st = extras ss.
Proof.
  intros lb c ss args Hlb Hok Hh Hs Hp. destruct (C73_parse_assigns lb c ss args Hlb Hok Hh Hs Hp) as (st & H1 & H2).
  exists st. split; [exact H1|]. destruct H2 as (_ & _ & H2 & H3 & _). rewrite H2, H3, Hp, Nat.sub_diag. cbn. now rewrite app_nil_r.
Qed.
Print Assumptions C76_nothing_lost.
(** In particular for arguments none of which is option-like. *)
Theorem C76_plain_arguments : forall lb c ps xs es,
  (0 < lb)%Z -> cfg_ok c -> help_ok c -> Forall (fun a => ~ option_like c a) (ps ++ es) ->
  length ps = length (positionals c) -> (es <> [] -> collect_extra c = true) ->
  Forall2 (fun '(p, a) x => reads_as lb p a x) (combine (positionals c) ps) xs ->
  exists st, parse lb c (init c) (ps ++ es) = Ok (true, st) /\ pvals st = map Some xs /\ extra st = es.
Proof.
  intros lb c ps xs es Hlb Hok Hh Ho Hl Hes Hr.
  set (ss := map (fun '(k, x) => Place k x) (combine (seq 0 (length xs)) xs) ++ map Also es).
  assert (Hpl : forall k ys, placed (map (fun '(k, x) => Place k x) (combine (seq k (length ys)) ys) ++ map Also es) = ys).
  { intros k ys. revert k. induction ys as [|y ys IH]; intros k; cbn.
    - induction es; cbn; auto. apply IHes; auto. apply Forall_app in Ho as [Ha Hb]. apply Forall_app. split; auto.
      now apply Forall_cons_iff in Hb. intros. apply Hes. discriminate.
    - f_equal. apply IH. }
  assert (Hex : forall k ys, extras (map (fun '(k, x) => Place k x) (combine (seq k (length ys)) ys) ++ map Also es) = es).
  { intros k ys. revert k. induction ys as [|y ys IH]; intros k; cbn; [|apply IH].
    clear. induction es; cbn; auto. now f_equal. }
  assert (Hg : forall i k ys, gives i (map (fun '(k, x) => Place k x) (combine (seq k (length ys)) ys) ++ map Also es) = []).
  { intros i k ys. revert k. induction ys as [|y ys IH]; intros k; cbn; [|apply IH].
    clear. induction es; cbn; auto. }
  assert (Hxl : length xs = length (positionals c)).
  { apply F2_len in Hr. rewrite combine_length in Hr. lia. }
  assert (Hs : says lb c ss (ps ++ es)).
  { exists (map (fun a => [a]) (ps ++ es)). split; [|split; [|split]].
    - unfold ss. rewrite map_app. apply Forall2_app.
      + apply Forall_app in Ho as [Ho _].
        assert (G : forall pl ps xs k, Forall (fun a => ~ option_like c a) ps -> length ps = length pl ->
                  (forall j, nth_error pl j = nth_error (positionals c) (k + j)) ->
                  Forall2 (fun '(p, a) x => reads_as lb p a x) (combine pl ps) xs ->
                  Forall2 (written lb c) (map (fun '(k, x) => Place k x) (combine (seq k (length xs)) xs)) (map (fun a => [a]) ps)).
        { clear. induction pl as [|p pl IH]; intros [|a ps] xs k Ho Hl Hn Hr; try discriminate; cbn [combine] in Hr.
          - inversion Hr. constructor.
          - destruct xs as [|x xs]; [inversion Hr|]. apply F2_cons in Hr as [H1 H2]. cbn.
            apply Forall_cons_iff in Ho as [Ho1 Ho2]. constructor.
            + apply w_place with p; auto. rewrite <- (Nat.add_0_r k), <- (Hn 0). reflexivity.
            + apply IH; auto. intros j. specialize (Hn (S j)). cbn [nth_error] in Hn. rewrite Hn. f_equal. lia. }
        eapply G; eauto.
      + apply Forall_app in Ho as [_ Ho]. clear - Ho Hes. revert Hes. induction es as [|e es IH]; intros Hes; cbn; constructor.
        * apply Forall_cons_iff in Ho as [Ho _]. constructor; auto. apply Hes. discriminate.
        * apply IH; [now apply Forall_cons_iff in Ho|]. intros _. apply Hes. discriminate.
    - clear. induction (ps ++ es); cbn; congruence.
    - unfold ss. assert (G : forall ys k, k + length ys = length (positionals c) ->
         in_order c k (map (fun '(k, x) => Place k x) (combine (seq k (length ys)) ys) ++ map Also es)).
      { clear. induction ys as [|y ys IH]; intros k Hk; cbn in *.
        - rewrite Nat.add_0_r in Hk. induction es; cbn; auto. split; [lia|auto].
        - split; [reflexivity|]. apply IH. lia. }
      apply G. exact Hxl.
    - intros i o _ _. unfold ss. rewrite Hg. cbn. lia. }
  destruct (C76_nothing_lost lb c ss (ps ++ es) Hlb Hok Hh Hs) as (st & H1 & H2 & H3).
  - unfold ss. rewrite Hpl. exact Hxl.
  - exists st. unfold ss in H2, H3. rewrite Hpl in H2. rewrite Hex in H3. auto.
Qed.
Print Assumptions C76_plain_arguments.
Example C76_nonvacuous : exists st, parse 64 demo (init demo) demo_args = Ok (true, st)
  /\ pvals st = [Some (VStr (lit "in")); Some (VInt 42)] /\ extra st = [lit "more"].
Proof. destruct demo_ok as [H1 H2]. exact (C76_nothing_lost 64 demo _ _ eq_refl H1 H2 demo_says eq_refl). Qed.

(** * C77 *)
Definition not_dashes_b (a : str) : bool := if list_eq_dec N.eq_dec a (lit "--") then false else true.
Lemma loop_passed lb c rest : allow_pass c = true -> forall pos st, has_pass st = true ->
  loop lb c rest pos st = Ok (LDone pos false (PState (vals st) (pvals st) (extra st)
     (passthru st ++ filter not_dashes_b rest) true (error st))).
Proof.
  intros Ha. induction rest as [|a rest IH]; intros pos st Hp.
  - cbn. rewrite app_nil_r, <- Hp. now destruct st.
  - cbn [loop]. unfold read_head. rewrite Ha. cbn [andb filter]. unfold not_dashes_b at 1, streq.
    destruct (list_eq_dec N.eq_dec a (lit "--")) as [->|Hne]; cbn [bind].
    + rewrite IH by reflexivity. reflexivity.
    + rewrite Hp. cbn [bind]. rewrite IH by reflexivity. cbn. rewrite <- app_assoc. reflexivity.
Qed.
(** After anything said, "--" and the rest: passthrough_args() is the rest in order, without any further "--"; the
    options, positionals and extras are as said, and the result only depends on whether all positionals were there. *)
Theorem C77_passthrough_exact_partial : forall lb c ss args rest,
  (0 < lb)%Z -> cfg_ok c -> help_ok c -> says lb c ss args -> allow_pass c = true ->
  exists st, parse lb c (init c) (args ++ lit "--" :: rest) = Ok (length (placed ss) =? length (positionals c), st)
    /\ passthru st = filter not_dashes_b rest /\ extra st = extras ss
    /\ (forall i, i < length (options c) -> nth_error (vals st) i = Some (gives i ss))
    /\ pvals st = map Some (placed ss) ++ repeat None (length (positionals c) - length (placed ss)).
Proof.
  intros lb c ss args rest Hlb Hok Hh Hs Ha. destruct (said lb c ss args Hlb Hok Hs) as (st & Hf & Ho & Hle & Hl).
  rewrite parse_finish, Hl. cbn [loop]. unfold read_head at 1. rewrite Ha, streq_refl. cbn [andb bind].
  rewrite (loop_passed lb c rest Ha) by reflexivity. cbn [bind finish negb andb vals pvals extra passthru error].
  pose proof (says_help_false lb c ss args st Hh Hs Ho) as Hw.
  destruct Ho as (H1 & H2 & H3 & H4 & H5 & H6 & H7).
  destruct (Nat.ltb_spec (length (placed ss)) (length (positionals c))) as [Hlt|Hge].
  - replace (length (placed ss) =? length (positionals c)) with false by (symmetry; apply Nat.eqb_neq; lia).
    eexists. split; [reflexivity|]. cbn. rewrite H5. auto.
  - eexists. split.
    + replace (length (placed ss) =? length (positionals c)) with true by (symmetry; apply Nat.eqb_eq; lia).
      unfold help_wanted in *. cbn [vals]. now rewrite Hw.
    + cbn. rewrite H5. auto.
Qed.
Print Assumptions C77_passthrough_exact_partial.
(** So, as long as there is no second "--", all of them unchanged. *)
Theorem C77_passthrough_no_second_partial : forall lb c ss args rest,
  (0 < lb)%Z -> cfg_ok c -> help_ok c -> says lb c ss args -> allow_pass c = true -> ~ In (lit "--") rest ->
  exists b st, parse lb c (init c) (args ++ lit "--" :: rest) = Ok (b, st) /\ passthru st = rest.
Proof.
  intros lb c ss args rest Hlb Hok Hh Hs Ha Hn.
  destruct (C77_passthrough_exact_partial lb c ss args rest Hlb Hok Hh Hs Ha) as (st & H1 & H2 & _).
  eexists _, st. split; [exact H1|]. rewrite H2. clear - Hn. induction rest as [|a rest IH]; [reflexivity|].
  cbn [filter]. unfold not_dashes_b at 1. destruct (list_eq_dec N.eq_dec a (lit "--")) as [->|]; [exfalso; apply Hn; now left|].
  f_equal. apply IH. intros H. apply Hn. now right.
Qed.
Print Assumptions C77_passthrough_no_second_partial.
(** Refuted otherwise: every further "--" is dropped. *)
Theorem C77_passthrough_refuted : forall lb c ss args rest,
  (0 < lb)%Z -> cfg_ok c -> help_ok c -> says lb c ss args -> allow_pass c = true -> In (lit "--") rest ->
  exists b st, parse lb c (init c) (args ++ lit "--" :: rest) = Ok (b, st) /\ passthru st <> rest /\ ~ In (lit "--") (passthru st).
Proof.
  intros lb c ss args rest Hlb Hok Hh Hs Ha Hin.
  destruct (C77_passthrough_exact_partial lb c ss args rest Hlb Hok Hh Hs Ha) as (st & H1 & H2 & _).
  assert (Hn : ~ In (lit "--") (passthru st)).
  { rewrite H2. intros H. apply filter_In in H as [_ H]. discriminate. }
  eexists _, st. split; [exact H1|]. split; [|exact Hn]. intros E. rewrite E in Hn. contradiction.
Qed.
Print Assumptions C77_passthrough_refuted.
Example C77_nonvacuous : exists st, parse 64 demo (init demo) (demo_args ++ [lit "--"; lit "-x"; lit "--"; lit "y"]) = Ok (true, st)
  /\ passthru st = [lit "-x"; lit "y"].
Proof. eexists. split; vm_compute; reflexivity. Qed.

(** * C78 *)
(** After anything said, a stop option not given before (in any spelling): whatever the remaining arguments are, the
    result is the same: all that was said and the stop option's value, and success unless it is the help option. *)
Theorem C78_stop_halts : forall lb c ss args sp i o n x,
  (0 < lb)%Z -> cfg_ok c -> help_ok c -> says lb c ss args -> spelled c sp i o n -> o_kind o = KStop ->
  flag_value o = Some x ->
  exists st b, (forall rest, parse lb c (init c) (args ++ (lead sp ++ n) :: rest) = Ok (b, st))
    /\ holds c (ss ++ [Give i x]) st /\ (b = true <-> help c <> Some i).
Proof.
  intros lb c ss args sp i o n x Hlb Hok Hh Hs Hsp Hk Hx.
  destruct (said lb c ss args Hlb Hok Hs) as (st & Hf & Ho & Hle & Hl).
  pose proof (says_no_stop lb c ss args i o Hs (proj1 Hsp) Hk) as Hg.
  assert (Hi : i < length (options c)) by (apply nth_error_Some; rewrite (proj1 Hsp); discriminate).
  assert (Hfr : free st i o) by (right; rewrite <- Hg; apply Ho; exact Hi).
  assert (Hp : has_pass st = false) by apply Ho.
  assert (Hst : holds c (ss ++ [Give i x]) (given st i o x)).
  { destruct Ho as (H1 & H2 & H3 & H4 & H5 & H6 & H7). unfold holds, given. cbn [vals pvals extra passthru has_pass error].
    assert (Ep : placed (ss ++ [Give i x]) = placed ss) by (unfold placed; rewrite flat_map_app; cbn; apply app_nil_r).
    assert (Ee : extras (ss ++ [Give i x]) = extras ss) by (unfold extras; rewrite flat_map_app; cbn; apply app_nil_r).
    rewrite Ep, Ee, (H1 i Hi), Hk. rewrite upd_length. repeat split; auto.
    intros j Hj. unfold gives. rewrite flat_map_app. fold (gives j ss). cbn [flat_map]. rewrite app_nil_r.
    rewrite nth_error_upd. destruct (Nat.eqb_spec i j) as [->|Hne]; cbn [andb].
    - rewrite H2. apply Nat.ltb_lt in Hj. rewrite Hj, Hg. reflexivity.
    - rewrite app_nil_r. auto. }
  exists (given st i o x), (negb (help_wanted c (given st i o x))). split; [|split; [exact Hst|]].
  - intros rest. rewrite parse_finish, Hl. pose proof (head_bare c Hok st (length (placed ss)) sp i o n Hf Hp Hsp Hfr) as E.
    rewrite (step_flag lb c st _ _ rest i o x (proj1 Hsp) E Hx), Hk. cbn [halts bind finish negb andb]. reflexivity.
  - rewrite negb_true_iff. unfold help_wanted. destruct (help c) as [j|] eqn:Ej; [|split; [discriminate|auto]].
    destruct (Hh j Ej) as (oj & Hoj & Hkj & Hdj). rewrite Hoj.
    assert (Hj : j < length (options c)) by (apply nth_error_Some; congruence).
    rewrite (proj1 Hst j Hj). unfold gives. rewrite flat_map_app. fold (gives j ss).
    rewrite (says_no_stop lb c ss args j oj Hs Hoj Hkj). cbn [flat_map app]. rewrite app_nil_r.
    destruct (Nat.eqb_spec i j) as [->|Hne]; cbn [opt_value].
    + assert (oj = o) by (pose proof (proj1 Hsp); congruence). subst oj. unfold flag_value in Hx. rewrite Hk, Hdj in Hx.
      injection Hx as <-. cbn. split; [discriminate|]. intros H. now destruct H.
    + rewrite Hdj. split; [intros _; congruence|reflexivity].
Qed.
Print Assumptions C78_stop_halts.
Definition demo2 : cfg :=
  Cfg [Opt (Some (lit "h")) (Some (lit "help")) KStop (Some (VBool false));
       Opt (Some (lit "V")) (Some (lit "version")) KStop (Some (VBool false))] [PStr; PInt] false false true true (Some 0).
Example C78_nonvacuous :
  (exists st, parse 64 demo2 (init demo2) [lit "in"; lit "--version"; lit "--no-such"; lit "x"] = Ok (true, st)
     /\ holds demo2 [Place 0 (VStr (lit "in")); Give 1 (VBool true)] st)
  /\ exists st, parse 64 demo2 (init demo2) [lit "in"; lit "-h"; lit "--no-such"] = Ok (false, st) /\ error st = None.
Proof.
  split; eexists; (split; [vm_compute; reflexivity|]); [|reflexivity].
  split; [|repeat split]. intros [|[|i]] Hi; [reflexivity..|cbn in Hi; lia].
Qed.

(** * C79 *)
(** What survives reset(): in every reachable state in which "--" has not been met, parsing after reset() gives the
    same result and the same option and positional values as a fresh parser; but the extra and passthrough arguments
    of earlier calls stay in front of the new ones, and an old error stays if there is no new one. *)
Theorem C79_reset_values_partial : forall lb c cs st args,
  reaches lb c (init c) cs st -> has_pass st = false ->
  match parse lb c (init c) args with
  | Ok (b, s) => exists st', parse lb c (reset c st) args = Ok (b, st')
      /\ vals st' = vals s /\ pvals st' = pvals s /\ has_pass st' = has_pass s
      /\ extra st' = extra st ++ extra s /\ passthru st' = passthru st ++ passthru s
      /\ error st' = match error s with Some e => Some e | None => error st end
  | Fault e => parse lb c (reset c st) args = Fault e
  | Diverge => parse lb c (reset c st) args = Diverge
  end.
Proof.
  intros lb c cs st args Hr Hp.
  assert (Hf : fits c st).
  { assert (G : forall s0 cs s1, reaches lb c s0 cs s1 -> fits c s0 -> fits c s1).
    { induction 1 as [s|s a b s1 cs' s2 Hp' H IH|s cs' s2 H IH]; intros Hf; auto.
      - apply IH. eapply parse_fits; eauto.
      - apply IH. now apply reset_fits. }
    eapply G; [exact Hr|]. apply fits_init. }
  rewrite (reset_graft c st Hf Hp), parse_graft.
  destruct (parse lb c (init c) args) as [[b s]| |] eqn:E; cbn [omap]; [|reflexivity..].
  eexists. split; [reflexivity|]. cbn. auto 7.
Qed.
Print Assumptions C79_reset_values_partial.
(** So a parser that has seen no extras, no "--" and no error is as good as new. *)
Theorem C79_reset_clean_partial : forall lb c cs st args,
  reaches lb c (init c) cs st -> has_pass st = false -> extra st = [] -> passthru st = [] -> error st = None ->
  parse lb c (reset c st) args = parse lb c (init c) args.
Proof.
  intros lb c cs st args Hr Hp He Hpt Her. pose proof (C79_reset_values_partial lb c cs st args Hr Hp) as H.
  destruct (parse lb c (init c) args) as [[b s]| |]; auto. destruct H as (st' & -> & H1 & H2 & H3 & H4 & H5 & H6).
  rewrite He in H4. rewrite Hpt in H5. rewrite Her in H6. cbn [app] in H4, H5.
  destruct st', s. cbn in *. subst. destruct error0; reflexivity.
Qed.
Print Assumptions C79_reset_clean_partial.
(** Refuted: once "--" has been met, reset() does not help: on every later command line all arguments are passed
    through and nothing is set. *)
Theorem C79_reset_after_dashes_refuted : forall lb c st args,
  allow_pass c = true -> has_pass st = true ->
  exists b st', parse lb c (reset c st) args = Ok (b, st') /\ vals st' = map (fun _ => []) (vals st)
    /\ pvals st' = map (fun _ => None) (pvals st)
    /\ passthru st' = passthru st ++ filter not_dashes_b args.
Proof.
  intros lb c st args Ha Hp. rewrite parse_finish, (loop_passed lb c args Ha) by exact Hp.
  cbn [bind finish negb andb]. destruct (0 <? length (positionals c)); eexists _, _; (split; [reflexivity|]); cbn; auto.
Qed.
Print Assumptions C79_reset_after_dashes_refuted.
(** Witnesses, through the public interface: parse, reset, parse. *)
Theorem C79_reset_refuted : exists b0 st0 b1 st1 st2,
  parse 64 demo (init demo) [lit "in"; lit "1"; lit "extra"; lit "--"; lit "p"] = Ok (b0, st0)
  /\ parse 64 demo (reset demo st0) [lit "-t"; lit "in"; lit "1"] = Ok (b1, st1)
  /\ parse 64 demo (init demo) [lit "-t"; lit "in"; lit "1"] = Ok (true, st2)
  /\ b1 = false /\ extra st1 = [lit "extra"] /\ extra st2 = [] /\ passthru st1 = [lit "p"; lit "-t"; lit "in"; lit "1"].
Proof. do 5 eexists. split; [vm_compute; reflexivity|]. split; [vm_compute; reflexivity|]. split; vm_compute; auto. Qed.
Theorem C79_error_refuted : exists st0 st1,
  parse 64 demo (init demo) [lit "--nope"] = Ok (false, st0)
  /\ parse 64 demo (reset demo st0) [lit "in"; lit "1"] = Ok (true, st1) /\ error st1 = Some (Unrecognized (lit "--nope")).
Proof. do 2 eexists. split; [vm_compute; reflexivity|]. split; vm_compute; reflexivity. Qed.
Example C79_nonvacuous : exists st, reaches 64 demo (init demo) [Parse [lit "-t"; lit "in"; lit "1"]; Reset; Parse [lit "in"; lit "3"]] st
  /\ has_pass st = false /\ extra st = [] /\ passthru st = [] /\ error st = None.
Proof.
  eexists. split; [eapply h_parse; [vm_compute; reflexivity|]; apply h_reset; eapply h_parse; [vm_compute; reflexivity|]; apply h_nil|].
  auto.
Qed.

(** * C80 *)
(** Refuted: a boolean Option followed by an argument that is no boolean literal has no effect at all: the command line
    means what it means without the option.  So does one with an attached value that is no boolean literal. *)
Theorem C80_no_effect_refuted : forall lb c ss args sp i o n next rest,
  (0 < lb)%Z -> cfg_ok c -> says lb c ss args -> spelled c sp i o n -> o_kind o = KOption PBool -> gives i ss = [] ->
  (forall x, ~ reads_as lb PBool next x) ->
  parse lb c (init c) (args ++ (lead sp ++ n) :: next :: rest) = parse lb c (init c) (args ++ next :: rest).
Proof.
  intros lb c ss args sp i o n next rest Hlb Hok Hs Hsp Hk Hg Hr.
  destruct (said lb c ss args Hlb Hok Hs) as (st & Hf & Ho & Hle & Hl). rewrite !parse_finish, !Hl. f_equal.
  assert (Hfr : free st i o) by (apply (holds_free c ss st i o Ho (proj1 Hsp)); auto).
  assert (Hp : has_pass st = false) by apply Ho.
  cbn [loop]. rewrite (head_bare c Hok st _ sp i o n Hf Hp Hsp Hfr), Hk. cbn [bind implied prefix_no]. rewrite (proj1 Hsp), Hk.
  cbn [must_omit]. unfold consume. rewrite Hk, (bool_reject lb next Hr). reflexivity.
Qed.
Print Assumptions C80_no_effect_refuted.
Theorem C80_bad_value_accepted_refuted : forall lb c ss args sp i o n v body rest,
  (0 < lb)%Z -> cfg_ok c -> says lb c ss args -> spelled c sp i o n -> o_kind o = KOption PBool -> gives i ss = [] ->
  attached (inline_values c) body n v -> (forall x, ~ reads_as lb PBool v x) ->
  parse lb c (init c) (args ++ (lead sp ++ body) :: rest) = parse lb c (init c) (args ++ rest).
Proof.
  intros lb c ss args sp i o n v body rest Hlb Hok Hs Hsp Hk Hg Ha Hr.
  destruct (said lb c ss args Hlb Hok Hs) as (st & Hf & Ho & Hle & Hl). rewrite !parse_finish, !Hl. f_equal.
  assert (Hfr : free st i o) by (apply (holds_free c ss st i o Ho (proj1 Hsp)); auto).
  assert (Hp : has_pass st = false) by apply Ho.
  pose proof (head_attached c Hok st (length (placed ss)) sp i o n v body Hf Hp Hsp Ha Hfr) as E. rewrite Hk in E. cbn [must_omit] in E.
  exact (step_value_ignored lb c st _ _ rest i o v (proj1 Hsp) E Hk Hr).
Qed.
Print Assumptions C80_bad_value_accepted_refuted.
Example C80_refuted_witness : exists st, parse 64 demo (init demo) [lit "-b"; lit "in"; lit "1"; lit "x"] = Ok (true, st)
  /\ nth_error (vals st) 6 = Some [] /\ forall x, ~ reads_as 64 PBool (lit "in") x.
Proof.
  eexists. split; [vm_compute; reflexivity|]. split; [reflexivity|]. intros x H. inversion H as [|s Hs|s Hs|]; subst; discriminate.
Qed.
(** What does work: as the last argument it gives true; followed by (or attached to) a boolean literal it gives that. *)
Theorem C80_bool_option_partial : forall lb c ss args sp i o n,
  (0 < lb)%Z -> cfg_ok c -> help_ok c -> says lb c ss args -> length (placed ss) = length (positionals c) ->
  spelled c sp i o n -> o_kind o = KOption PBool -> gives i ss = [] ->
  (exists st, parse lb c (init c) (args ++ [lead sp ++ n]) = Ok (true, st) /\ nth_error (vals st) i = Some [VBool true])
  /\ (forall v b, reads_as lb PBool v (VBool b) ->
      exists st, parse lb c (init c) (args ++ [lead sp ++ n; v]) = Ok (true, st) /\ nth_error (vals st) i = Some [VBool b])
  /\ (forall v b body, reads_as lb PBool v (VBool b) -> attached (inline_values c) body n v ->
      exists st, parse lb c (init c) (args ++ [lead sp ++ body]) = Ok (true, st) /\ nth_error (vals st) i = Some [VBool b]).
Proof.
  intros lb c ss args sp i o n Hlb Hok Hh Hs Hpl Hsp Hk Hg.
  destruct (said lb c ss args Hlb Hok Hs) as (st & Hf & Ho & Hle & Hl).
  assert (Hfr : free st i o) by (apply (holds_free c ss st i o Ho (proj1 Hsp)); auto).
  assert (Hp : has_pass st = false) by apply Ho.
  assert (Hi : i < length (vals st)) by (destruct Hf as [-> _]; apply nth_error_Some; rewrite (proj1 Hsp); discriminate).
  assert (Hhelp : forall x, help_wanted c (given st i o x) = false).
  { intros x. pose proof (says_help_false lb c ss args st Hh Hs Ho) as Hw. unfold help_wanted in *.
    destruct (help c) as [j|] eqn:Ej; [|reflexivity]. destruct (Hh j Ej) as (oj & Hoj & Hkj & _). rewrite Hoj in *.
    unfold given. cbn [vals]. destruct (nth_error (vals st) i) as [vs|]; [|exact Hw].
    rewrite nth_error_upd. destruct (Nat.eqb_spec i j) as [->|]; [|exact Hw]. pose proof (proj1 Hsp). congruence. }
  assert (Hval : forall x, nth_error (vals (given st i o x)) i = Some [x]).
  { intros x. unfold given. cbn [vals]. destruct (nth_error (vals st) i) as [vs|] eqn:E; [|apply nth_error_Some in Hi; congruence].
    rewrite nth_error_upd, Nat.eqb_refl, Hk. apply Nat.ltb_lt in Hi. now rewrite Hi. }
  assert (Hfin : forall args' x, loop lb c args' (length (placed ss)) st = Ok (LDone (length (placed ss)) false (given st i o x)) ->
    exists st', parse lb c (init c) (args ++ args') = Ok (true, st') /\ nth_error (vals st') i = Some [x]).
  { intros args' x E. exists (given st i o x). split; [|apply Hval]. rewrite parse_finish, Hl, E. cbn [bind finish].
    now rewrite Hpl, Nat.ltb_irrefl, andb_false_r, Hhelp. }
  split; [|split].
  - apply Hfin. cbn [loop]. rewrite (head_bare c Hok st _ sp i o n Hf Hp Hsp Hfr), Hk. cbn [bind implied prefix_no].
    rewrite (proj1 Hsp), Hk. cbn [can_omit]. unfold consume. rewrite Hk. cbn [policy_consume bind halts].
    now rewrite (store_given c st i o _ (proj1 Hsp)).
  - intros v b Hr. apply Hfin.
    pose proof (head_bare c Hok st (length (placed ss)) sp i o n Hf Hp Hsp Hfr) as E. rewrite Hk in E.
    rewrite (step_spaced lb Hlb c st _ _ v [] i o PBool (VBool b) (proj1 Hsp) E ltac:(now rewrite Hk) Hr). reflexivity.
  - intros v b body Hr Ha. apply Hfin.
    pose proof (head_attached c Hok st (length (placed ss)) sp i o n v body Hf Hp Hsp Ha Hfr) as E. rewrite Hk in E.
    rewrite (step_value lb Hlb c st _ _ [] i o PBool v (VBool b) (proj1 Hsp) E ltac:(now rewrite Hk) Hr). reflexivity.
Qed.
Print Assumptions C80_bool_option_partial.
Example C80_nonvacuous : exists st, parse 64 demo (init demo) (demo_args ++ [lit "--bool"; lit "FALSE"]) = Ok (true, st)
  /\ nth_error (vals st) 6 = Some [VBool false].
Proof.
  destruct demo_ok as [H1 H2].
  destruct (C80_bool_option_partial 64 demo _ _ Long 6 _ (lit "bool") eq_refl H1 H2 demo_says eq_refl (conj eq_refl eq_refl) eq_refl eq_refl)
    as (_ & H & _). apply (H (lit "FALSE") false). constructor. reflexivity.
Qed.

(** * C81 *)
(** Exactly the texts that are accepted, for every text: blanks, sign, decimal digits, nothing else; and the value is
    the number, put through the saturation of strtol and the conversion to int. *)
Theorem C81_int_exact_partial : forall lb v, (0 < lb)%Z -> ~ In 0%N v ->
  (forall z, integer v z -> policy_consume lb PInt (Some v) = Ok (Some (VInt (squeeze lb z))))
  /\ ((forall z, ~ integer v z) -> policy_consume lb PInt (Some v) = Ok None)
  /\ (forall x, policy_consume lb PInt (Some v) = Ok (Some x) -> exists z, integer v z /\ x = VInt (squeeze lb z)).
Proof.
  intros lb v Hlb Hz. split; [|split].
  - intros z H. apply policy_reads; [exact Hlb|]. now constructor.
  - intros H. destruct (policy_consume_cases lb Hlb PInt v Hz) as [(x & _ & Hx)|[Hx _]]; [|exact Hx].
    inversion Hx; subst. now destruct (H z).
  - intros x H. destruct (policy_consume_cases lb Hlb PInt v Hz) as [(x' & Hx1 & Hx)|[Hx _]]; [|congruence].
    inversion Hx; subst. exists z. split; [assumption|]. congruence.
Qed.
Print Assumptions C81_int_exact_partial.
(** In range of int: the exact value is stored by the whole parser, for every spelling. *)
Theorem C81_int_in_range_partial : forall lb c ss args sp i o n v z,
  (32 <= lb)%Z -> cfg_ok c -> help_ok c -> says lb c ss args -> length (placed ss) = length (positionals c) ->
  spelled c sp i o n -> o_kind o = KOption PInt -> gives i ss = [] -> integer v z -> int_range z ->
  exists st, parse lb c (init c) (args ++ [lead sp ++ n; v]) = Ok (true, st) /\ nth_error (vals st) i = Some [VInt z].
Proof.
  intros lb c ss args sp i o n v z Hlb Hok Hh Hs Hpl Hsp Hk Hg Hi Hrg.
  assert (Hlb' : (0 < lb)%Z) by lia.
  assert (Hs' : says lb c (ss ++ [Give i (VInt z)]) (args ++ [lead sp ++ n; v])).
  { destruct Hs as (parts & Hw & -> & Hio & Hon). exists (parts ++ [[lead sp ++ n; v]]). split; [|split; [|split]].
    - apply Forall2_app; [exact Hw|]. constructor; [|constructor].
      eapply (w_space lb c sp i o n v PInt); [exact Hsp|now rewrite Hk|]. rewrite <- (squeeze_id lb z Hlb Hrg). now constructor.
    - rewrite concat_app. cbn. now rewrite ?app_nil_r.
    - clear - Hio. revert Hio. generalize 0. induction ss as [|[j x|k x|a] ss IH]; intros k0 Hio; cbn in *; auto.
      + destruct Hio. auto.
      + destruct Hio. auto.
    - intros j oj Hj Hnr. unfold gives. rewrite flat_map_app, app_length. fold (gives j ss). cbn [flat_map].
      destruct (Nat.eqb_spec i j) as [<-|]; cbn [app length]; [rewrite Hg; cbn; lia|]. specialize (Hon j oj Hj Hnr). lia. }
  destruct (C73_parse_assigns lb c _ _ Hlb' Hok Hh Hs') as (st & H1 & H2).
  - unfold placed. rewrite flat_map_app. cbn. rewrite app_nil_r. exact Hpl.
  - exists st. split; [exact H1|].
    assert (Hil : i < length (options c)) by (apply nth_error_Some; rewrite (proj1 Hsp); discriminate).
    rewrite (proj1 H2 i Hil). unfold gives. rewrite flat_map_app. fold (gives i ss). rewrite Hg. cbn. now rewrite Nat.eqb_refl.
Qed.
Print Assumptions C81_int_in_range_partial.
(** Refuted: integers outside the range of int are accepted, and something else is stored. *)
Theorem C81_out_of_range_refuted : forall lb v z, (32 <= lb)%Z -> integer v z -> ~ int_range z ->
  exists y, policy_consume lb PInt (Some v) = Ok (Some (VInt y)) /\ y <> z.
Proof.
  intros lb v z Hlb Hi Hr. exists (squeeze lb z). split; [apply policy_reads; [lia|]; now constructor|].
  intros E. apply Hr. rewrite <- E. unfold squeeze, to_int, int_range.
  match goal with |- context [((?a + _) mod _)%Z] => generalize a end. intros a.
  change (2 ^ 32)%Z with (2 ^ 31 + 2 ^ 31)%Z. pose proof (Z.mod_pos_bound (a + 2 ^ 31) (2 ^ 31 + 2 ^ 31) eq_refl). lia.
Qed.
Print Assumptions C81_out_of_range_refuted.
Example C81_nonvacuous :
  policy_consume 64 PInt (Some (lit "4294967296")) = Ok (Some (VInt 0))
  /\ policy_consume 64 PInt (Some (lit "2147483648")) = Ok (Some (VInt (-2147483648)))
  /\ policy_consume 32 PInt (Some (lit "4294967296")) = Ok (Some (VInt 2147483647))
  /\ policy_consume 64 PInt (Some (lit "-2147483648")) = Ok (Some (VInt (-2147483648)))
  /\ policy_consume 64 PInt (Some (lit "0x10")) = Ok None /\ policy_consume 64 PInt (Some []) = Ok None.
Proof. repeat split; vm_compute; reflexivity. Qed.
