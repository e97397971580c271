(** Model of the ways into the argument parser of amtl/experimental/am-argparser.h: the parse() overloads, the
    constructors of Parser and of the option classes, the static options, and several parsers in one program.

    Objects are never destroyed in this model (an option must outlive the parsers that refer to it, and they it,
    as the class requires).  Allocation does not fail.  sStaticOptions is initialised before the first static
    option is constructed. *)
From Coq Require Import Ascii String.
From Verif Require Import Base ArgModel.
Local Open Scope nat_scope.
Local Open Scope list_scope.

(** * The overloads of parse *)
(** A char* handed in by the caller: None is the null pointer.  A std::string is the list of its characters, NUL
    included; c_str() read as a C string ends at the first NUL. *)
(** The const char* elements of the argument vectors of am-argparser.h:590-619. *)
Fixpoint c_str (s : str) : str :=
  match s with [] => [] | x :: t => if N.eqb x 0 then [] else x :: c_str t end.
(** strcmp and the like on a null pointer are undefined.  Simplification: the fault is raised when the pointers are
    collected and not when (and if) the loop reaches the null one. *)
Fixpoint pointers (l : list (option str)) : outcome (list str) :=
  match l with
  | [] => Ok []
  | None :: _ => Fault NullDeref
  | Some s :: l => do r <- pointers l; Ok (s :: r)
  end.
(** am-argparser.h:584-586: for (int i = 1; i < argc; i++) args.emplace_back(argv[i]), [n] iterations from [i] on. *)
Fixpoint copy_argv (argv : list (option str)) (i n : nat) : outcome (list (option str)) :=
  match n with
  | O => Ok []
  | S n => do a <- slot_get argv i; do r <- copy_argv argv (i + 1) n; Ok (a :: r)
  end.
(** am-argparser.h:609-616: va_arg until a null pointer; reading past the arguments that were passed is undefined. *)
Fixpoint copy_va (ap : list (option str)) : outcome (list (option str)) :=
  match ap with
  | [] => Fault OutOfBounds
  | None :: _ => Ok []
  | Some a :: ap => do r <- copy_va ap; Ok (Some a :: r)
  end.
Section Overloads.
Variable long_bits : Z.
(** am-argparser.h:581-588 parse(int argc, char** argv) *)
Definition parse_main (c : cfg) (st : pstate) (argc : nat) (argv : list (option str)) : outcome (bool * pstate) :=
  do args <- copy_argv argv 1 (argc - 1); do args <- pointers args; parse long_bits c st args.
(** am-argparser.h:590-594 parse(const std::vector<const char*>&) *)
Definition parse_pointers (c : cfg) (st : pstate) (args : list (option str)) : outcome (bool * pstate) :=
  do args <- pointers args; parse long_bits c st args.
(** am-argparser.h:596-603 parse(const std::vector<std::string>&) *)
Definition parse_strings (c : cfg) (st : pstate) (args : list str) : outcome (bool * pstate) :=
  do args <- pointers (List.map (fun s => Some (c_str s)) args); parse long_bits c st args.
(** am-argparser.h:605-619 parsev(const char* arg1, ...): arg1 and the variable arguments. *)
Definition parsev (c : cfg) (st : pstate) (ap : list (option str)) : outcome (bool * pstate) :=
  do args <- copy_va ap; do args <- pointers args; parse long_bits c st args.
End Overloads.

(** * Several parsers *)
(** The option objects of the program, those with names and the positional ones, each with its value. *)
(** A Parser object (am-argparser.h:131-146): the options by index instead of by pointer. *)
Record parser := Prs {
  p_opts : list nat; p_poss : list nat;          (* options_, positionals_: pointers to the objects *)
  p_inline : bool; p_slashes : bool; p_collect : bool; p_pass : bool;
  p_help : bool;                                 (* help_option_ is not null; it is then options_[0] *)
  p_extra : list str; p_passthru : list str; p_has_pass : bool; p_error : option perr
}.
(** All option objects and parsers of a program, and sStaticOptions (am-argparser.h:109-113, 131-146). *)
Record world := World {
  w_opts : list (optd * list value);
  w_poss : list (policy * option value);
  w_sopts : list nat; w_sposs : list nat;        (* sStaticOptions, in order of registration *)
  w_parsers : list parser
}.
(** Before anything is constructed (am-argparser.h:109-113). *)
Definition start : world := World [] [] [] [] [].

(** The setters of am-argparser.h:72-94. *)
Inductive mode := InlineValues | AllowSlashes | CollectExtra | AllowPassthrough.
Inductive event :=
| EStaticOpt (o : optd) | EStaticPos (p : policy)            (* an option constructed without a parser *)
| EParser (help : bool)                                      (* Parser() / Parser(text) *)
| EOpt (p : nat) (o : optd) | EPos (p : nat) (k : policy)    (* an option constructed with parser p *)
| EMode (p : nat) (m : mode)
| EParse (p : nat) (args : list str) | EReset (p : nat).

(** am-argparser.h:561-564: what Parser(const char* ) registers first. *)
Definition help_option : optd := Opt (Some (lit "h")) (Some (lit "help")) KStop (Some (VBool false)).

Definition opt_at (w : world) (i : nat) : optd * list value := nth i (w_opts w) (help_option, []).
Definition pos_at (w : world) (i : nat) : policy * option value := nth i (w_poss w) (PBool, None).
(** What parse_impl sees through options_ and positionals_. *)
(** The input of parse_impl (am-argparser.h:621-739) as ArgModel takes it. *)
Definition cfg_of (w : world) (p : parser) : cfg :=
  Cfg (List.map (fun i => fst (opt_at w i)) (p_opts p)) (List.map (fun i => fst (pos_at w i)) (p_poss p))
    (p_inline p) (p_slashes p) (p_collect p) (p_pass p) (if p_help p then Some 0 else None).
(** The state parse_impl starts from (am-argparser.h:621-739). *)
Definition view (w : world) (p : parser) : pstate :=
  PState (List.map (fun i => snd (opt_at w i)) (p_opts p)) (List.map (fun i => snd (pos_at w i)) (p_poss p))
    (p_extra p) (p_passthru p) (p_has_pass p) (p_error p).
(** What it leaves behind: values in the option objects, the rest in the parser. *)
(** value_ of one option after parse_impl (am-argparser.h:621-739). *)
Fixpoint write {A B} (objs : list (A * B)) (ids : list nat) (xs : list B) : list (A * B) :=
  match ids, xs with
  | i :: ids, x :: xs =>
      write (match nth_error objs i with Some (a, _) => upd objs i (a, x) | None => objs end) ids xs
  | _, _ => objs
  end.
(** The state parse_impl leaves (am-argparser.h:621-739). *)
Definition leave (w : world) (k : nat) (p : parser) (st : pstate) : world :=
  World (write (w_opts w) (p_opts p) (vals st)) (write (w_poss w) (p_poss p) (pvals st)) (w_sopts w) (w_sposs w)
    (upd (w_parsers w) k (Prs (p_opts p) (p_poss p) (p_inline p) (p_slashes p) (p_collect p) (p_pass p) (p_help p)
                            (extra st) (passthru st) (has_pass st) (error st))).
Definition set_mode (p : parser) (m : mode) : parser :=       (* am-argparser.h:72-94 *)
  Prs (p_opts p) (p_poss p)
    (match m with InlineValues => true | _ => p_inline p end) (match m with AllowSlashes => true | _ => p_slashes p end)
    (match m with CollectExtra => true | _ => p_collect p end) (match m with AllowPassthrough => true | _ => p_pass p end)
    (p_help p) (p_extra p) (p_passthru p) (p_has_pass p) (p_error p).
(** am-argparser.h:572-579 Parser::add *)
Definition add_opt (p : parser) (i : nat) : parser :=
  Prs (p_opts p ++ [i]) (p_poss p) (p_inline p) (p_slashes p) (p_collect p) (p_pass p) (p_help p) (p_extra p)
    (p_passthru p) (p_has_pass p) (p_error p).
Definition add_pos (p : parser) (i : nat) : parser :=
  Prs (p_opts p) (p_poss p ++ [i]) (p_inline p) (p_slashes p) (p_collect p) (p_pass p) (p_help p) (p_extra p)
    (p_passthru p) (p_has_pass p) (p_error p).
Definition new_opt (w : world) (o : optd) : world :=
  World (w_opts w ++ [(o, [])]) (w_poss w) (w_sopts w) (w_sposs w) (w_parsers w).
Definition new_pos (w : world) (k : policy) : world :=
  World (w_opts w) (w_poss w ++ [(k, None)]) (w_sopts w) (w_sposs w) (w_parsers w).
Definition with_parser (w : world) (k : nat) (p : parser) : world :=
  World (w_opts w) (w_poss w) (w_sopts w) (w_sposs w) (upd (w_parsers w) k p).
Definition blank : parser := Prs [] [] false false false false false [] [] false None.

Section World.
Variable long_bits : Z.
(** One action of the program; a call of parse() gives its result. *)
Definition step (w : world) (e : event) : outcome (world * option bool) :=
  match e with
  | EStaticOpt o =>                                            (* am-argparser.h:109-113 add_static_option *)
      Ok (World (w_opts w ++ [(o, [])]) (w_poss w) (w_sopts w ++ [List.length (w_opts w)]) (w_sposs w) (w_parsers w), None)
  | EStaticPos k =>
      Ok (World (w_opts w) (w_poss w ++ [(k, None)]) (w_sopts w) (w_sposs w ++ [List.length (w_poss w)]) (w_parsers w), None)
  | EParser hlp =>                                             (* am-argparser.h:551-570 *)
      let p := Prs [] [] false false false false hlp [] [] false None in
      let (w, p) := if hlp then (new_opt w help_option, add_opt p (List.length (w_opts w))) else (w, p) in
      let p := fold_left add_opt (w_sopts w) p in
      let p := fold_left add_pos (w_sposs w) p in
      Ok (World (w_opts w) (w_poss w) (w_sopts w) (w_sposs w) (w_parsers w ++ [p]), None)
  | EOpt k o =>
      do p <- slot_get (w_parsers w) k; Ok (with_parser (new_opt w o) k (add_opt p (List.length (w_opts w))), None)
  | EPos k t =>
      do p <- slot_get (w_parsers w) k; Ok (with_parser (new_pos w t) k (add_pos p (List.length (w_poss w))), None)
  | EMode k m => do p <- slot_get (w_parsers w) k; Ok (with_parser w k (set_mode p m), None)
  | EParse k args =>
      do p <- slot_get (w_parsers w) k;
      do (b, st) <- parse long_bits (cfg_of w p) (view w p) args;
      Ok (leave w k p st, Some b)
  | EReset k =>                                                (* am-argparser.h:1033-1042 *)
      do p <- slot_get (w_parsers w) k; Ok (leave w k p (reset (cfg_of w p) (view w p)), None)
  end.
(** A run, with the results of the parse() calls, each with the parser it was called on. *)
(** Client programs over am-argparser.h:551-739, 1033-1042: not code of /repo. *)
Fixpoint run (w : world) (es : list event) : outcome (world * list (nat * bool)) :=
  match es with
  | [] => Ok (w, [])
  | e :: es =>
      do (w, r) <- step w e;
      do (w, rs) <- run w es;
      Ok (w, match e, r with EParse k _, Some b => (k, b) :: rs | _, _ => rs end)
  end.
End World.
