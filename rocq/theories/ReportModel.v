(** Model of the error texts of amtl/experimental/am-argparser.h (Parser::unrecognized_option ... option_already_specified,
    781-821, and IOption::pretty_name, 208-214), and of the usual client:

      if (!parser.parse(argc, argv)) { parser.usage(stderr, argc, argv); return 1; }

    parse_impl is that of ArgModel, usage() that of UsageModel, StringPrintf that of StrModel.  Simplification: error_ is
    formatted when usage() reads it instead of when parse_impl fails; names and help texts of options do not change. *)
From Coq Require Import String.
From Verif Require Import Base ArgModel ArgEntryModel StrModel UsageModel.
Local Open Scope nat_scope.
Local Open Scope list_scope.

(** The texts of a parser and its options that parsing does not look at (am-argparser.h:131-146, 217-220): names and help of
    the positionals, help of the options, the lines of add_usage_line, the text given to the constructor, set_usage_line. *)
Record texts := Texts {
  t_poss : list (str * option str);
  t_helps : list (option str);
  t_extra : list udesc;
  t_banner : str;
  t_line : str
}.
(** An option as usage() and the error texts see it (am-argparser.h:175-220). *)
Definition desc_opt (oh : optd * option str) : udesc :=
  UD (o_short (fst oh)) (o_long (fst oh)) None (snd oh) (must_omit (o_kind (fst oh))) (can_omit (o_kind (fst oh))).
(** A positional, which has a name and no forms (am-argparser.h:175-220, 251-254). *)
Definition desc_pos (nh : str * option str) : udesc := UD None None (Some (fst nh)) (snd nh) false false.
(** The parser, with [err] in error_ (am-argparser.h:131-146). *)
Definition ucfg_of (c : cfg) (t : texts) (err : str) : ucfg :=
  UC (List.map desc_pos (t_poss t)) (List.map desc_opt (combine (options c) (t_helps t))) (t_extra t) (t_banner t) (t_line t)
     err (negb (is_null (help c))).

Section Report.
Variable w : N.              (* bits of size_t *)
Variable debug : bool.
Variable char_signed : bool.
Variable msvc : bool.        (* which vsnprintf *)
Variable long_bits : Z.

(** am-argparser.h:208-214 pretty_name *)
Definition pretty_name (o : udesc) : outcome str :=
  match u_name o with
  | Some n => Ok n
  | None => match u_long o with Some l => Ok l | None => UsageModel.get (u_short o) end
  end.
(** StringPrintf with %s directives only; [t] is the text they produce (am-argparser.h:784, 798, 805, 812, 819). *)
Definition printf (t : str) : outcome str := string_printf debug msvc (Text t) (Text t).
(** am-argparser.h:781-821 *)
Definition message (u : ucfg) (e : perr) : outcome str :=
  match e with
  | Unrecognized a => printf (lit "Unrecognized option: " ++ a)
  | UnrecognizedExtra => Ok (lit "Unrecognized extra arguments at end of command.")
  | NeedsValue i =>
      do o <- slot_get (u_opts u) i; do n <- pretty_name o; printf (lit "Option '" ++ n ++ lit "' needs a value.")
  | InvalidValue positional i v =>
      do o <- slot_get (if positional then u_pos u else u_opts u) i; do n <- pretty_name o;
      printf (lit "Argument '" ++ n ++ lit "' did not recognize value: " ++ v)
  | MissingPositional i =>
      do o <- slot_get (u_pos u) i; do n <- pretty_name o; printf (lit "Missing value for '" ++ n ++ lit "'.")
  | AlreadySpecified i =>
      do o <- slot_get (u_opts u) i; do n <- pretty_name o; printf (lit "Option '" ++ n ++ lit "' was specified more than once.")
  end.
(** error_ (am-argparser.h:781-821; empty before the first error). *)
Definition error_text (c : cfg) (t : texts) (st : pstate) : outcome str :=
  match error st with None => Ok [] | Some e => message (ucfg_of c t []) e end.
(** usage(fp, argc, argv) of a parser in the state [st] (am-argparser.h:823-1006): what it prints. *)
Definition show_usage (c : cfg) (t : texts) (st : pstate) (argv : list str) : outcome str :=
  do err <- error_text c t st; usage w debug char_signed (ucfg_of c t err) argv.
(** The client above, calling am-argparser.h:581-588 and 823-1006: what parse() returned, and what is printed. *)
Definition main (c : cfg) (t : texts) (st : pstate) (argv : list str) : outcome (bool * str * pstate) :=
  do (ok, st) <- parse_main long_bits c st (List.length argv) (List.map Some argv ++ [None]);
  if ok then Ok (true, [], st)
  else do out <- show_usage c t st argv; Ok (false, out, st).
End Report.
