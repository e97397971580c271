(** Model of the restyler's driver, tools/restyler/amstyler.cpp:622-781 (ToolMain).  clang is an input: [parse_errors] is
    whether the parsed text has errors, [new_text] what the visitors and TextRewriter make of it (StylerModel.v,
    RewriteModel.v).  A file system maps path names to contents.  Lines end with a newline character. *)
From Verif Require Import Base.
Local Open Scope nat_scope.

Notation text := (list N).
Definition fs := N -> option text.
Definition fs_set (f : fs) (p : N) (c : text) : fs := fun q => if N.eqb p q then Some c else f q.

Section Tool.
Variable parse_errors : text -> bool.
Variable new_text : text -> outcome text.

(** What the operating system does during one in-place write: whether the file may be opened for writing, and the number of
    bytes in the file after each write that the stream makes on its behalf (the last number is less than the size of the
    text if an error, such as a full disk, stops the writing). *)
Record os := Os { can_open : bool; written : list nat }.

(** amstyler.cpp:655-735 RunForPath: the states of the file system that can be observed from outside (a crash stops at one of
    them), what is printed, and the result.  The stream reports no error at 730 or when it is closed at the end of the scope.
    Not modelled: the setup of clang (657-694), the messages on stderr.  The visitors run while the
    text is parsed, before errors are known; that they may fail on a text with errors (C95) is not modelled here. *)
Definition run_for_path (in_place : bool) (f : fs) (e : os) (p : N) : outcome (list fs * text * bool) :=
  match f p with
  | None => Ok ([f], [], false)                                                  (* amstyler.cpp:697-702 *)
  | Some old =>
      if parse_errors old then Ok ([f], [], false)                               (* amstyler.cpp:715-718 *)
      else
        do t <- new_text old;                                                    (* 720 *)
        if in_place then
          if can_open e then
            Ok (f :: map (fun n => fs_set f p (firstn n t)) (0 :: written e), [], true)    (* amstyler.cpp:721-730, 734 *)
          else Ok ([f], [], false)                                               (* amstyler.cpp:725-729 *)
        else Ok ([f], t, true)                                                   (* 732, 734 *)
  end.
(** amstyler.cpp:645-652 Run. *)
Fixpoint run (in_place : bool) (f : fs) (inputs : list (N * os)) : outcome (list fs * text * bool) :=
  match inputs with
  | [] => Ok ([f], [], true)
  | (p, e) :: rest =>
      do (h, out, ok) <- run_for_path in_place f e p;
      do (h', out', ok') <- run in_place (last h f) rest;
      Ok (h ++ h', out ++ out', ok && ok')
  end.
End Tool.

(** ** GetSearchPaths, amstyler.cpp:737-774 *)
Definition NL : N := 10%N.
Definition space (c : N) : bool := (N.eqb c 32 || ((9 <=? c) && (c <=? 13)))%N.
(** fgets(buffer, size, fp): at most [n] = size - 1 bytes, up to and including a newline. *)
(** tools/restyler/amstyler.cpp:737-774. *)
Fixpoint fgets (n : nat) (l : text) : text * text :=
  match n, l with
  | O, _ | _, [] => ([], l)
  | S n, c :: r => if N.eqb c NL then ([c], r) else let (a, b) := fgets n r in (c :: a, b)
  end.
(** std::string line = buffer: up to a NUL. *)
(** tools/restyler/amstyler.cpp:737-774. *)
Fixpoint c_str (l : text) : text := match l with c :: r => if N.eqb c 0 then [] else c :: c_str r | [] => [] end.
(** line.compare(0, s.size(), s) == 0 *)
(** tools/restyler/amstyler.cpp:737-774. *)
Definition begins (s line : text) : bool := if list_eq_dec N.eq_dec (firstn (List.length s) line) s then true else false.
Fixpoint trim_left (l : text) : text := match l with c :: r => if space c then trim_left r else l | [] => [] end.
(** pop_back while the last is a space *)
(** tools/restyler/amstyler.cpp:737-774. *)
Fixpoint trim_right (l : text) : text :=
  match l with [] => [] | c :: r => match trim_right r with [] => if space c then [] else [c] | x => c :: x end end.

From Coq Require Import String Ascii.
Definition lit (s : string) : text := map N_of_ascii (list_ascii_of_string s).
(** amstyler.cpp:743-744 *)
Definition start_string : text := Eval cbv in lit "#include <...> search starts here:".
Definition end_string : text := Eval cbv in lit "End of search list.".
(** amstyler.cpp:749-772, [fuel] bounds the number of fgets calls.  isspace of a byte above 127 (a negative char) is false, as in the C
    locale of glibc. *)
Fixpoint parse_paths (fuel : nat) (l : text) (is_parsing : bool) : outcome (list text) :=
  match fuel with
  | O => Diverge
  | S fuel =>
      match l with
      | [] => Ok []
      | _ =>
          let (buffer, rest) := fgets 1023 l in
          let line := c_str buffer in
          if begins start_string line then parse_paths fuel rest true
          else if begins end_string line && is_parsing then Ok []
          else if negb is_parsing then parse_paths fuel rest is_parsing
          else
            let line := trim_right (trim_left line) in
            match line with
            | [] => parse_paths fuel rest is_parsing
            | _ => do ps <- parse_paths fuel rest is_parsing; Ok (line :: ps)
            end
      end
  end.
(** amstyler.cpp:737-774; [output] is None if popen fails: fgets then gets a null FILE*. *)
Definition get_search_paths (fuel : nat) (output : option text) : outcome (list text) :=
  match output with None => Fault NullDeref | Some l => parse_paths fuel l false end.
