(** Which destructions a program may perform, in terms of its history, and what it then shows. *)
From Verif Require Import Base ArgModel ArgEntryModel ArgLifeModel.
Local Open Scope nat_scope.
Local Open Scope list_scope.

(** Whom an option was constructed for: every parser made later ([Shared b]: static, constructed when b parsers had been
    made), one parser, or it is a parser's own help option. *)
Inductive owner := Shared (b : nat) | Of (k : nat) | HelpOf (k : nat).
(** The options with names in the order of their construction; [n] parsers have been made before. *)
Fixpoint owners (n : nat) (es : list levent) : list owner :=
  match es with
  | [] => []
  | LEv (EStaticOpt _) :: es => Shared n :: owners n es
  | LEv (EOpt k _) :: es => Of k :: owners n es
  | LEv (EParser hlp) :: es => (if hlp then [HelpOf n] else []) ++ owners (S n) es
  | _ :: es => owners n es
  end.
(** The same for positional options. *)
Fixpoint powners (n : nat) (es : list levent) : list owner :=
  match es with
  | [] => []
  | LEv (EStaticPos _) :: es => Shared n :: powners n es
  | LEv (EPos k _) :: es => Of k :: powners n es
  | LEv (EParser hlp) :: es => powners (S n) es
  | _ :: es => powners n es
  end.
Fixpoint made_so_far (es : list levent) : nat :=
  match es with [] => 0 | LEv (EParser _) :: es => S (made_so_far es) | _ :: es => made_so_far es end.
(** Parser k knows an option with this owner. *)
Definition knows (k : nat) (o : owner) : Prop := match o with Shared b => b <= k | Of j | HelpOf j => j = k end.
Definition known_by (os : list owner) (k i : nat) : Prop := exists o, nth_error os i = Some o /\ knows k o.
Definition is_shared (os : list owner) (i : nat) : Prop := exists b, nth_error os i = Some (Shared b).
(** Destroyed so far; a help option goes with its parser. *)
Definition gone_parser (pre : list levent) (k : nat) : Prop := In (LKillParser k) pre.
Definition gone_opt (pre : list levent) (i : nat) : Prop :=
  In (LKillOpt i) pre \/ exists k, nth_error (owners 0 pre) i = Some (HelpOf k) /\ gone_parser pre k.
Definition gone_pos (pre : list levent) (i : nat) : Prop := In (LKillPos i) pre.

(** What the program may do after [pre]: a call on a parser needs the parser, parse(), usage() and reset() need in addition all the
    options it knows, constructing a parser needs all static options; a client destroys what exists, once, and not a
    parser's help option. *)
Definition parser_there (pre : list levent) (k : nat) : Prop := k < made_so_far pre /\ ~ gone_parser pre k.
Definition options_there (pre : list levent) (k : nat) : Prop :=
  (forall i, known_by (owners 0 pre) k i -> ~ gone_opt pre i) /\ (forall i, known_by (powners 0 pre) k i -> ~ gone_pos pre i).
Definition allowed (pre : list levent) (e : levent) : Prop :=
  match e with
  | LEv (EStaticOpt _) | LEv (EStaticPos _) => True
  | LEv (EParser _) =>
      (forall i, is_shared (owners 0 pre) i -> ~ gone_opt pre i) /\ (forall i, is_shared (powners 0 pre) i -> ~ gone_pos pre i)
  | LEv (EOpt k _) | LEv (EPos k _) | LEv (EMode k _) => parser_there pre k
  | LEv (EParse k _) | LEv (EReset k) => parser_there pre k /\ options_there pre k
  | LKillOpt i => i < length (owners 0 pre) /\ ~ gone_opt pre i /\ forall k, nth_error (owners 0 pre) i <> Some (HelpOf k)
  | LKillPos i => i < length (powners 0 pre) /\ ~ gone_pos pre i
  | LKillParser k => parser_there pre k
  | LUsage k _ => parser_there pre k /\ options_there pre k
  | LValue i => i < length (owners 0 pre) /\ ~ gone_opt pre i
  | LPosValue i => i < length (powners 0 pre) /\ ~ gone_pos pre i
  end.
Definition disciplined (es : list levent) : Prop := forall pre e post, es = pre ++ e :: post -> allowed pre e.

(** The program if nothing were ever destroyed: the model of ArgEntryModel, destructions doing nothing. *)
Section Keep.
Variable long_bits : Z.
Definition keep_step (w : world) (e : levent) : outcome (world * lout) :=
  match e with
  | LEv e => do (w, r) <- step long_bits w e; Ok (w, match r with Some b => OParsed b | None => ONothing end)
  | LKillOpt _ | LKillPos _ | LKillParser _ => Ok (w, ONothing)
  | LValue i => do x <- slot_get (w_opts w) i; Ok (w, OValues (snd x))
  | LPosValue i => do x <- slot_get (w_poss w) i; Ok (w, OPosValue (snd x))
  | LUsage k _ => do _ <- slot_get (w_parsers w) k; Ok (w, ONothing)
  end.
Fixpoint keep_run (w : world) (es : list levent) : outcome (world * list lout) :=
  match es with
  | [] => Ok (w, [])
  | e :: es => do (w, r) <- keep_step w e; do (w, rs) <- keep_run w es; Ok (w, r :: rs)
  end.
End Keep.

(** The options with names, in the order of their construction. *)
Fixpoint named (es : list levent) : list optd :=
  match es with
  | [] => []
  | LEv (EStaticOpt o) :: es | LEv (EOpt _ o) :: es => o :: named es
  | LEv (EParser true) :: es => help_option :: named es
  | _ :: es => named es
  end.
