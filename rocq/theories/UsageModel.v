(** Model of Parser::usage and usage_line, amtl/experimental/am-argparser.h:823-1031.

    fprintf appends to a list of bytes (output errors are outside the model); StringPrintf with only %s directives is
    concatenation (its allocation and length behaviour is the subject of C46/C47 and StrModel); size_t counters that
    only count bytes of strings in memory are unbounded.  Split, Join and Uppercase are those of StrModel. *)
From Coq Require Import String.
From Verif Require Import Base ArgModel StrModel.
Local Open Scope nat_scope.
Local Open Scope list_scope.

(** The parts of an IOption usage() looks at: forms, name, help (null = None) and two of its virtual methods. *)
(** What am-argparser.h:823-1031 reads of an option. *)
Record udesc := UD {
  u_short : option str; u_long : option str; u_name : option str; u_help : option str;
  u_must : bool;      (* mustOmitValue() *)
  u_can : bool        (* canOmitValue() *)
}.
(** What am-argparser.h:823-1031 reads of a parser. *)
Record ucfg := UC {
  u_pos : list udesc;                   (* positionals_ *)
  u_opts : list udesc;                  (* options_ *)
  u_extra : list udesc;                 (* extra_usage_: UsageOnlyOption, a name and a help text *)
  u_banner : str;                       (* help_ *)
  u_line : str;                         (* usage_line_ *)
  u_error : str;                        (* error_ *)
  u_helpopt : bool                      (* help_option_ is set *)
}.
(** The pieces of the texts at am-argparser.h:823-1031. *)
Definition nl : N := 10%N.
Definition ln (s : str) : str := s ++ [nl].
Definition get {A} (p : option A) : outcome A := match p with Some x => Ok x | None => Fault NullDeref end.

Section Usage.
Variable w : N.              (* bits of size_t *)
Variable debug : bool.
Variable char_signed : bool.

Fixpoint mapM {A B} (f : A -> outcome B) (l : list A) : outcome (list B) :=
  match l with [] => Ok [] | x :: t => do y <- f x; do ys <- mapM f t; Ok (y :: ys) end.

(** am-argparser.h:1008-1025 usage_line; argv null is [None]. *)
Definition usage_line (c : ucfg) (argv : option (list str)) : outcome str :=
  do a0 <- match argv with Some a => slot_get a 0 | None => Ok (lit " ") end;
  do more <- match u_line c with
             | [] => do names <- mapM (fun o => get (u_name o)) (u_pos c); Ok (lit "[-h]" :: names)
             | l => Ok [l]
             end;
  do text <- join w debug (lit "Usage:" :: a0 :: more) (c_str (lit " "));
  Ok (ln text).

Definition indent : str := lit "  ".                                  (* am-argparser.h:877-881 *)
Definition max_left : nat := 28.                                     (* 894 *)
Definition max_right : nat := 80 - 28.                               (* 895 *)

(** am-argparser.h:884-891, 932-939: positionals and extra lines. *)
Definition name_cells (o : udesc) : outcome (list str) := do n <- get (u_name o); Ok [indent ++ n].
(** am-argparser.h:901-906. *)
Definition value_suffix (o : udesc) : outcome str :=
  if negb (u_must o) && negb (u_can o) then
    do name <- get (match u_long o with Some l => Some l | None => u_short o end);
    do words <- split debug (c_str name) (c_str (lit "-"));
    do joined <- join w debug words (c_str (lit "_"));
    do decorated <- uppercase char_signed (c_str joined);
    Ok (lit "=" ++ decorated)
  else Ok [].
(** am-argparser.h:898-930. *)
Definition option_cells (o : udesc) : outcome (list str) :=
  do suffix <- value_suffix o;
  let both := match u_short o, u_long o with
              | Some s, Some l => Some (indent ++ lit "-" ++ s ++ lit ", --" ++ l ++ suffix ++ lit " ")
              | _, _ => None
              end in
  let separate :=
    match u_short o with Some s => [indent ++ lit "-" ++ s ++ lit " "] | None => [] end
    ++ match u_long o with Some l => [indent ++ lit "--" ++ l ++ suffix ++ lit " "] | None => [] end in
  Ok (match both with
      | Some joined => if List.length joined <=? max_left then [joined] else separate
      | None => separate
      end).

(** am-argparser.h:955-967. *)
Fixpoint wrap (words line : list str) (line_size : nat) (help_lines : list str) : outcome (list str) :=
  match words with
  | [] => match line with
          | [] => Ok help_lines
          | _ => do l <- join w debug line (c_str (lit " ")); Ok (help_lines ++ [l])
          end
  | word :: more =>
      if (max_right <=? line_size + List.length word + 1) && negb (match line with [] => true | _ => false end)
      then do l <- join w debug line (c_str (lit " "));
           wrap more [word] (List.length word + 1) (help_lines ++ [l])
      else wrap more (line ++ [word]) (line_size + List.length word + 1) help_lines
  end.
(** am-argparser.h:951-967; help() null: Split(nullptr). *)
Definition help_cells (o : udesc) : outcome (list str) :=
  do h <- get (u_help o);
  do words <- split debug (c_str h) (c_str (lit " "));
  wrap words [] 0 [].
(** am-argparser.h:947-949. *)
Definition col_width (cells : list str) : nat := fold_left (fun m l => Nat.max m (List.length l)) cells 0.

Definition pad (s : str) : str := s ++ repeat 32%N (28 - List.length s).    (* "%-28s" *)
Definition spaces : str := repeat 32%N 28.                                   (* am-argparser.h:978-980 *)
(** am-argparser.h:994-1001: one row per left cell; the help lines that are left over. *)
Fixpoint beside (cells helps : list str) : str * list str :=
  match cells with
  | [] => ([], helps)
  | l :: cells =>
      match helps with
      | h :: helps => let (out, left) := beside cells helps in (ln (pad l ++ h) ++ out, left)
      | [] => let (out, left) := beside cells [] in (ln (pad l ++ []) ++ out, left)
      end
  end.
(** am-argparser.h:990-1004. *)
Definition print_entry (cells helps : list str) : str :=
  let (out, left) := if max_left <=? col_width cells then (List.concat (List.map ln cells), helps) else beside cells helps in
  out ++ List.concat (List.map (fun h => ln (spaces ++ h)) left).
(** am-argparser.h:982-1005: the loop over the entries; [named] says whether name() is set. *)
Fixpoint print_entries (es : list (bool * (list str * list str))) (started : bool) : str :=
  match es with
  | [] => []
  | (named, (cells, helps)) :: es =>
      let head := negb named && negb started in
      (if head then ln [] ++ ln (lit "optional arguments:") else [])
      ++ print_entry cells helps ++ print_entries es (started || head)
  end.

Definition wants_help (argv : list str) : bool :=
  existsb (fun a => streq a (lit "-h") || streq a (lit "--help")) (List.tl argv).
Definition is_empty {A} (l : list A) : bool := match l with [] => true | _ => false end.

(** am-argparser.h:823-1006 usage(fp, argc, argv). *)
Definition usage (c : ucfg) (argv : list str) : outcome str :=
  if negb (is_empty (u_error c)) && (negb (u_helpopt c) || negb (wants_help argv)) then
    do l <- usage_line c (Some argv);
    Ok (l ++ ln (lit "error: " ++ u_error c))
  else
    let banner := if is_empty (u_banner c) then [] else ln (u_banner c) ++ ln [] in
    do l <- usage_line c (Some argv);
    do pcells <- mapM name_cells (u_pos c);
    do ocells <- mapM option_cells (u_opts c);
    do xcells <- mapM name_cells (u_extra c);
    let options := u_pos c ++ u_opts c ++ u_extra c in
    let cells := pcells ++ ocells ++ xcells in
    if is_empty cells then Ok (banner ++ l)
    else
      do helps <- mapM help_cells options;
      let header := if is_empty (u_pos c) then [] else ln [] ++ ln (lit "positional arguments:") in
      Ok (banner ++ l ++ header
          ++ print_entries (combine (List.map (fun o => negb (is_null (u_name o))) options) (combine cells helps)) false).
End Usage.
