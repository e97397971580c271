(** What the user of a program is told about a command line that was rejected. *)
From Coq Require Import String.
From Verif Require Import Base ArgModel ArgSpec StrModel StrSpec UsageModel UsageSpec ReportModel.
Local Open Scope nat_scope.
Local Open Scope list_scope.

(** The first line: the program's name, then the text of set_usage_line, or "[-h]" and the names of the positionals. *)
Definition usage_text (t : texts) (argv0 : str) : str :=
  intercalate space (lit "Usage:" :: argv0 ::
    match t_line t with [] => lit "[-h]" :: map fst (t_poss t) | l => [l] end).
(** Every positional has a name and every option a help text or none; the usage line is no longer than a string can be. *)
Definition texts_fit (w : N) (c : cfg) (t : texts) (argv0 : str) : Prop :=
  length (t_poss t) = length (positionals c) /\ length (t_helps t) = length (options c)
  /\ (N.of_nat (length (usage_text t argv0)) < 2 ^ w)%N.
(** Messages call an option by its long form, or by its short form if it has no long one. *)
Definition known_as (o : optd) (n : str) : Prop := o_long o = Some n \/ (o_long o = None /\ o_short o = Some n).
(** Neither "-h" nor "--help" is among the arguments, or the parser has no help option. *)
Definition no_help_word (c : cfg) (args : list str) : Prop :=
  help c = None \/ (~ In (lit "-h") args /\ ~ In (lit "--help") args).
(** StringPrintf can produce the text (C47). *)
Definition printable (m : str) : Prop := (Z.of_nat (length m) < 2 ^ 31 - 1)%Z.
(** What the program prints: the usage line and the message. *)
Definition complaint (t : texts) (argv0 m : str) : str := unlines [usage_text t argv0; lit "error: " ++ m].

(** The texts, and what each of them says about the arguments. *)
Inductive blames (c : cfg) (t : texts) (args : list str) : str -> Prop :=
| bl_unknown a : In a args -> option_like c a -> blames c t args (lit "Unrecognized option: " ++ a)
| bl_extra a : In a args -> ~ option_like c a -> collect_extra c = false ->
    blames c t args (lit "Unrecognized extra arguments at end of command.")
| bl_needs o n before a : In o (options c) -> known_as o n -> o_kind o <> KOption PBool -> args = before ++ [a] -> option_like c a ->
    blames c t args (lit "Option '" ++ n ++ lit "' needs a value.")
| bl_invalid o n v a k : In o (options c) -> known_as o n -> In a args -> v = skipn k a ->
    blames c t args (lit "Argument '" ++ n ++ lit "' did not recognize value: " ++ v)
| bl_invalid_positional i n h v : nth_error (t_poss t) i = Some (n, h) -> In v args -> ~ option_like c v ->
    blames c t args (lit "Argument '" ++ n ++ lit "' did not recognize value: " ++ v)
| bl_missing i n h : nth_error (t_poss t) i = Some (n, h) ->
    blames c t args (lit "Missing value for '" ++ n ++ lit "'.")
| bl_twice o n a : In o (options c) -> known_as o n -> (forall p, o_kind o <> KRepeat p) -> In a args -> option_like c a ->
    blames c t args (lit "Option '" ++ n ++ lit "' was specified more than once.").
