(** Property C123: options and parsers that are destroyed.  Statements only. *)
From Coq Require Import Ascii String.
From Verif Require Import Base ArgModel ArgEntryModel ArgLifeModel ArgLifeSpec ArgLifeProofs.
Local Open Scope nat_scope.
Local Open Scope list_scope.

(** ** C123 *)
(** A program that calls parse(), usage() and reset() on a parser only while the options it knows exist, and constructs parsers only
    while all static options exist, shows what it would show if nothing were ever destroyed - whatever order it destroys
    options and parsers in. *)
Theorem C123_destruction_unnoticed_partial : forall lb es, disciplined es ->
  match keep_run lb start es with
  | Ok (w, rs) => exists W, lrun lb lstart es = Ok (W, rs) /\ lw W = w
  | Fault f => lrun lb lstart es = Fault f
  | Diverge => lrun lb lstart es = Diverge
  end.
Proof. intros lb es H. exact (agree_run lb es [] lstart linv_start H). Qed.
Print Assumptions C123_destruction_unnoticed_partial.

(** No destructor tells the parsers.  reset() on a parser one of whose options is gone: *)
Theorem C123_reset_refuted : forall lb es W rs k i,
  lrun lb lstart es = Ok (W, rs) -> parser_there es k -> known_by (owners 0 es) k i -> gone_opt es i ->
  lrun lb lstart (es ++ [LEv (EReset k)]) = Fault UseAfterFree.
Proof. exact reset_dead. Qed.
Print Assumptions C123_reset_refuted.
(** parse() of a command line whose first argument is an option nobody has (the search goes through all of them): *)
Theorem C123_parse_refuted : forall lb es W rs k i n,
  lrun lb lstart es = Ok (W, rs) -> parser_there es k -> known_by (owners 0 es) k i -> gone_opt es i ->
  ~ In (LEv (EMode k AllowPassthrough)) es ->
  ~ In c_eq n -> ~ In c_colon n -> (forall o, In o (named es) -> o_long o <> Some n) ->
  forall rest, lrun lb lstart (es ++ [LEv (EParse k ((lit "--" ++ n) :: rest))]) = Fault UseAfterFree.
Proof. exact unknown_dead. Qed.
Print Assumptions C123_parse_refuted.
(** parse() of the empty command line when the positional options are gone: *)
Theorem C123_positional_refuted : forall lb es W rs k i,
  lrun lb lstart es = Ok (W, rs) -> parser_there es k -> known_by (powners 0 es) k i ->
  (forall j, known_by (powners 0 es) k j -> gone_pos es j) ->
  lrun lb lstart (es ++ [LEv (EParse k [])]) = Fault UseAfterFree.
Proof. exact missing_dead. Qed.
Print Assumptions C123_positional_refuted.
(** A new parser, once a static option (say, a local variable) is gone: *)
Theorem C123_new_parser_refuted : forall lb es W rs hlp i,
  lrun lb lstart es = Ok (W, rs) -> is_shared (owners 0 es) i -> gone_opt es i ->
  lrun lb lstart (es ++ [LEv (EParser hlp)]) = Fault UseAfterFree.
Proof. exact parser_dead. Qed.
Print Assumptions C123_new_parser_refuted.

(** usage(), once a positional option is gone; and, on a parser with a help option, when the help is asked for and any option
    is gone: *)
Theorem C123_usage_positional_refuted : forall lb es W rs k i,
  lrun lb lstart es = Ok (W, rs) -> parser_there es k -> known_by (powners 0 es) k i -> gone_pos es i ->
  forall args, lrun lb lstart (es ++ [LUsage k args]) = Fault UseAfterFree.
Proof. intros lb es W rs k i E T K G args. exact (usage_dead_pos lb es W rs k args i E T K G). Qed.
Print Assumptions C123_usage_positional_refuted.
Theorem C123_usage_refuted : forall lb es W rs k i h,
  lrun lb lstart es = Ok (W, rs) -> parser_there es k -> known_by (owners 0 es) k i -> gone_opt es i ->
  nth_error (owners 0 es) h = Some (HelpOf k) ->
  forall args, In (lit "-h") args \/ In (lit "--help") args -> lrun lb lstart (es ++ [LUsage k args]) = Fault UseAfterFree.
Proof. intros lb es W rs k i h E T K G Hh args Ha. exact (usage_dead_opt lb es W rs k args i h E T K G Hh Ha). Qed.
Print Assumptions C123_usage_refuted.

(** Non-vacuity.  Two parsers, a static option, options destroyed before and after their parsers, values read after the
    parser is gone. *)
Definition num : optd := Opt (Some (lit "n")) (Some (lit "num")) (KOption PInt) (Some (VInt 0)).
Definition out : optd := Opt (Some (lit "o")) (Some (lit "out")) (KOption PStr) None.
Definition ex_life : list levent :=
  [LEv (EStaticOpt num); LEv (EParser true); LEv (EOpt 0 out); LEv (EPos 0 PStr); LEv (EParser false); LEv (EOpt 1 out);
   LEv (EParse 0 [lit "--out=a"; lit "x"]); LKillOpt 2; LKillPos 0; LUsage 1 [lit "--help"]; LEv (EParse 1 [lit "-n"; lit "7"; lit "--out"; lit "b"]);
   LKillParser 0; LEv (EReset 1); LEv (EParse 1 [lit "--out=c"]); LKillParser 1; LValue 3; LKillOpt 3; LValue 0; LKillOpt 0].
Fixpoint disc (pre es : list levent) : Prop :=
  match es with [] => True | e :: es => allowed pre e /\ disc (pre ++ [e]) es end.
Lemma disc_disciplined : forall es pre, disc pre es -> forall a e b, es = a ++ e :: b -> allowed (pre ++ a) e.
Proof.
  induction es as [|x es IH]; intros pre H a e b E; [destruct a; discriminate|]. destruct H as [H1 H2].
  destruct a as [|y a]; injection E as -> E.
  - now rewrite app_nil_r.
  - subst es. specialize (IH _ H2 a e b eq_refl). now rewrite <- app_assoc in IH.
Qed.
Ltac in_false := match goal with
  | H : In ?x ?l |- _ => cbn in H; repeat (destruct H as [H|H]; [discriminate|]); destruct H
  end.
Ltac gone_tac :=
  match goal with
  | |- ~ gone_opt _ _ =>
      let X := fresh "X" in let k := fresh "k" in let Y := fresh "Y" in
      intros [X|(k & X & Y)];
      [cbn in X; repeat (destruct X as [X|X]; [discriminate|]); destruct X
      |cbn in X; first [discriminate|injection X as <-; unfold gone_parser in Y; cbn in Y; repeat (destruct Y as [Y|Y]; [discriminate|]); destruct Y]]
  | |- ~ gone_pos _ _ => intros X; unfold gone_pos in X; cbn in X; repeat (destruct X as [X|X]; [discriminate|]); destruct X
  | |- ~ gone_parser _ _ => intros X; unfold gone_parser in X; cbn in X; repeat (destruct X as [X|X]; [discriminate|]); destruct X
  end.
Ltac each :=
  let i := fresh "i" in let o := fresh "o" in let Ho := fresh "Ho" in let K := fresh "K" in
  intros i (o & Ho & K);
  do 6 (destruct i as [|i]; [cbn in Ho; first [discriminate|injection Ho as <-; first [exfalso; cbn in K; lia|gone_tac]]|]); cbn in Ho; destruct i; discriminate.
Ltac each_s :=
  let i := fresh "i" in let b := fresh "b" in let Ho := fresh "Ho" in
  intros i (b & Ho);
  do 6 (destruct i as [|i]; [cbn in Ho; first [discriminate|injection Ho as <-; gone_tac]|]); cbn in Ho; destruct i; discriminate.
Ltac allow :=
  cbn [app allowed]; unfold parser_there, options_there;
  repeat match goal with
  | |- True => exact I
  | |- _ /\ _ => split
  | |- _ < _ => cbn; lia
  | |- ~ _ => gone_tac
  | |- forall i, is_shared _ i -> _ => each_s
  | |- forall i, known_by _ _ i -> _ => each
  | |- forall k, nth_error _ _ <> _ => intros ?; cbn; discriminate
  end.
Example C123_disciplined_example :
  disciplined ex_life /\
  exists W, lrun 64 lstart ex_life = Ok (W,
    [ONothing; ONothing; ONothing; ONothing; ONothing; ONothing;
     OParsed true; ONothing; ONothing; ONothing; OParsed true; ONothing; ONothing; OParsed true; ONothing;
     OValues [VStr (lit "c")]; ONothing; OValues []; ONothing]).
Proof.
  split.
  - intros a e b E. apply (disc_disciplined ex_life [] ltac:(cbn [disc ex_life]; repeat (split; [allow|]); exact I) a e b E).
  - eexists. vm_compute. reflexivity.
Qed.
(** A parser whose option went out of scope: the hypotheses of the refutations are met, and known options still work. *)
Definition ex_gone : list levent :=
  [LEv (EStaticOpt num); LEv (EParser false); LEv (EOpt 0 out); LEv (EPos 0 PStr); LKillOpt 1; LKillPos 0].
Example C123_gone_example :
  (exists W, lrun 64 lstart ex_gone = Ok (W, [ONothing; ONothing; ONothing; ONothing; ONothing; ONothing])) /\
  parser_there ex_gone 0 /\ known_by (owners 0 ex_gone) 0 1 /\ gone_opt ex_gone 1 /\
  (forall o, In o (named ex_gone) -> o_long o <> Some (lit "verbose")) /\
  known_by (powners 0 ex_gone) 0 0 /\ (forall j, known_by (powners 0 ex_gone) 0 j -> gone_pos ex_gone j) /\
  lrun 64 lstart (ex_gone ++ [LEv (EParse 0 [lit "--verbose"])]) = Fault UseAfterFree /\
  (let es := [LEv (EStaticOpt num); LEv (EParser false); LEv (EParse 0 [lit "-n1"]); LKillOpt 0] in
   is_shared (owners 0 es) 0 /\ gone_opt es 0 /\ lrun 64 lstart (es ++ [LEv (EParser false)]) = Fault UseAfterFree).
Proof.
  split; [eexists; vm_compute; reflexivity|]. split; [split; [cbn; lia|gone_tac]|].
  split; [exists (Of 0); split; reflexivity|]. split; [left; cbn; tauto|].
  split; [intros o Ho; cbn in Ho; repeat (destruct Ho as [<-|Ho]; [vm_compute; discriminate|]); destruct Ho|].
  split; [exists (Of 0); split; reflexivity|].
  split; [intros [|[|j]] (o & Ho & _); cbn in Ho; try discriminate; unfold gone_pos; cbn; tauto|].
  split; [vm_compute; reflexivity|]. cbn zeta. split; [exists 0; reflexivity|]. split; [left; cbn; tauto|vm_compute; reflexivity].
Qed.
