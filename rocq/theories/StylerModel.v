(** Model of the restyler, tools/restyler/amstyler.cpp, apart from TextRewriter (RewriteModel.v).

    The clang AST and lexer are inputs:
    - a source location is an offset into the main file's text (a list of bytes); clang keeps a NUL behind the text;
      reading further away is the fault OutOfBounds;
    - [tok_end i] is Lexer::getLocForEndOfToken at [i], [kind i] the kind of the raw token at [i];
    - what the visitors ask about a node is the record [func] or [cond] below.
    Lines end with a newline character (clang also counts a lone carriage return). *)
From Verif Require Import Base RewriteModel.
Local Open Scope nat_scope.

Notation text := (list N).
(** Line ends, as tools/restyler/amstyler.cpp:561-566 counts them. *)
Definition NL : N := 10%N.
(** clang::isWhitespace and C-locale isspace: space, \t \n \v \f \r. *)
(** The test of tools/restyler/amstyler.cpp:549-552. *)
Definition white (c : N) : bool := (N.eqb c 32 || ((9 <=? c) && (c <=? 13)))%N.

(** ** Locations *)
(** *getCharacterData(loc) *)
Definition char_at (t : text) (i : nat) : outcome N :=
  if i =? length t then Ok 0%N else match nth_error t i with Some c => Ok c | None => Fault OutOfBounds end.
(** amstyler.cpp:561-566 getLine. *)
Definition line_of (t : text) (i : nat) : nat := S (count_occ N.eq_dec (firstn i t) NL).
(** amstyler.cpp:554-559 getCol: 1 at the beginning of a line. *)
Fixpoint col_from (t : text) (i col : nat) : nat :=
  match i, t with
  | O, _ | _, [] => col
  | S j, c :: r => col_from r j (if N.eqb c NL then 1 else S col)
  end.
Definition col_of (t : text) (i : nat) : nat := col_from t i 1.
(** amstyler.cpp:549-552 isWhitespace. *)
Definition is_white (t : text) (i : nat) : outcome bool := do c <- char_at t i; Ok (white c).
(** amstyler.cpp:540-547 skipWhitespace, on the text from the location on. *)
Fixpoint white_run (t : text) : nat := match t with c :: r => if white c then S (white_run r) else 0 | [] => 0 end.
Definition skip_white (t : text) (i : nat) : outcome nat :=
  if i <=? length t then Ok (i + white_run (skipn i t)) else Fault OutOfBounds.

Inductive tk := KComma | KComment | KHash | KRParen | KOther.

Section Styler.
Variable w : N.                  (* width of size_t *)
Variable debug : bool.
Variable t : text.
Variable tok_end : nat -> nat.
Variable kind : nat -> tk.

(** amstyler.cpp:528-531 skipToken. *)
Definition skip_token (i : nat) : outcome nat :=
  do b <- is_white t i; do _ <- assert_ debug (negb b); Ok (tok_end i).
(** amstyler.cpp:491-498 getNextToken, with getTokenKind 533-538; [fuel] bounds the number of comments. *)
Fixpoint next_token (fuel : nat) (i : nat) : outcome nat :=
  match fuel with
  | O => Diverge
  | S fuel =>
      do i <- skip_white t i;
      match kind i with KComment => do i <- skip_token i; next_token fuel i | _ => Ok i end
  end.
(** amstyler.cpp:478-489 getRParenLoc(SourceLocation): None is the invalid location. *)
Definition rparen_after (fuel i : nat) : outcome (option nat) :=
  do i <- skip_token i; do i <- next_token fuel i;
  match kind i with
  | KHash => Ok None
  | k => do _ <- assert_ debug (match k with KRParen => true | _ => false end); Ok (Some i)
  end.
(** amstyler.cpp:466-476 getRParenLocBackwards: from [i] down to, but not including, [stop].  Below the start of the file the walk
    leaves the text. *)
Fixpoint rparen_back (stop i : nat) : outcome (option nat) :=
  if i =? stop then Ok None
  else
    do c <- char_at t i;
    if N.eqb c 41 then Ok (Some i)
    else match i with O => Fault OutOfBounds | S j => rparen_back stop j end.
(** amstyler.cpp:507-526 getFirstWhitespaceBeforeLoc. *)
Fixpoint first_white_before (fuel i end_ : nat) : outcome nat :=
  match fuel with
  | O => Diverge
  | S fuel =>
      do b <- is_white t i;
      if b then
        do j <- skip_white t i;
        if j =? end_ then Ok i
        else do _ <- assert_ debug (j <? end_); first_white_before fuel j end_
      else
        do j <- skip_token i;
        do _ <- assert_ debug (j <? end_); first_white_before fuel j end_
  end.
(** amstyler.cpp:572-592 getIndentForLine.  Walking back: the newline at or before [i], if any (on the first line the pointer is
    decremented once below the buffer, and not dereferenced). *)
Fixpoint newline_back (i : nat) : outcome (option nat) :=
  do c <- char_at t i;
  if N.eqb c NL then Ok (Some i) else match i with O => Ok None | S j => newline_back j end.
Definition indent_for_line (i : nat) : outcome text :=
  do nl <- newline_back i;
  let start := match nl with Some p => S p | None => 0 end in
  Ok (firstn (white_run (skipn start t)) (skipn start t)).

Notation ops := (list (operation N)).
Notation repl o a b x := (replace w o (N.of_nat a) (N.of_nat b) x).
Notation remv o a b := (remove w o (N.of_nat a) (N.of_nat b)).

(** amstyler.cpp:434-440 splitBrace. *)
Definition split_brace (o : ops) (line where_ body : nat) : outcome ops :=
  do ind <- indent_for_line line; Ok (repl o where_ body (NL :: ind)).
(** amstyler.cpp:428-432 splitBraceAfter. *)
Definition split_brace_after (o : ops) (line where_ body : nat) : outcome ops := split_brace o line (S where_) body.
(** amstyler.cpp:442-450 maybeSplitBrace. *)
Definition maybe_split_brace (o : ops) (line rparen body : nat) : outcome ops :=
  if line_of t line =? line_of t rparen then Ok o
  else if negb (line_of t rparen =? line_of t body) then Ok o
  else split_brace_after o line rparen body.

(** ** Statements (amstyler.cpp:193-234) *)
Record cond := Cond {
  c_main : bool;             (* isMainFile(s->getLocStart()) *)
  c_start : nat;             (* s->getLocStart() *)
  c_compound : bool;         (* the body is a CompoundStmt *)
  c_body : nat;              (* body->getLocStart(): its brace *)
  c_end : option nat         (* end of the condition, or of the condition variable; None if invalid *)
}.
(** amstyler.cpp:221-234 HandleCondStmt (if, while, switch: 193-201), with getRParenLoc(CondStmt) 456-464. *)
Definition handle_cond (fuel : nat) (o : ops) (s : cond) : outcome ops :=
  if negb (c_main s) then Ok o
  else if negb (c_compound s) then Ok o
  else
    do r <- match c_end s with None => Ok None | Some e => rparen_after fuel e end;
    do r <- match r with None => rparen_back (c_start s) (c_body s) | Some p => Ok (Some p) end;
    match r with None => Ok o | Some p => maybe_split_brace o (c_start s) p (c_body s) end.
(** amstyler.cpp:202-209 VisitForStmt: clang knows the parenthesis. *)
Definition visit_for (o : ops) (s : cond) (rparen : nat) : outcome ops :=
  if negb (c_main s) then Ok o
  else if negb (c_compound s) then Ok o
  else maybe_split_brace o (c_start s) rparen (c_body s).
(** amstyler.cpp:210-219 VisitCXXCatchStmt; [decl_end] is None for catch (...), which has no exception declaration: the null pointer is
    dereferenced at 216. *)
Definition visit_catch (fuel : nat) (o : ops) (s : cond) (decl_end : option nat) : outcome ops :=
  if negb (c_main s) then Ok o
  else if negb (c_compound s) then Ok o
  else
    do e <- match decl_end with Some e => Ok e | None => Fault NullDeref end;
    do r <- rparen_after fuel e;
    match r with
    | Some p => maybe_split_brace o (c_start s) p (c_body s)
    | None => do _ <- assert_ debug false; Fault BadArg      (* 217; then the invalid location is used *)
    end.

(** ** Functions (amstyler.cpp:236-324) *)
Record func := Func {
  f_main : bool;
  f_start : nat;                      (* f->getLocStart(), also its raw encoding *)
  f_operator : option nat;            (* overloaded operator spelled with the keyword: where the keyword ends *)
  f_body : option (nat * option (nat * bool));
      (* hasBody(): body->getLocStart(); if the body is a CompoundStmt (this is then its left brace), its right brace and
         whether it has no statements *)
  f_ctor : option (list (option nat));     (* constructor: getRParenLoc() of its initializers, implicit ones included *)
  f_type : option (nat * nat);        (* typeLoc begin and end, if both are valid *)
  f_name : nat
}.
(** amstyler.cpp:405-426 maybeFixOperatorKeyword. *)
Definition fix_operator (o : ops) (e : nat) : outcome ops :=
  do b <- is_white t e; Ok (if b then o else insert_at o (N.of_nat e) [32%N]).
(** amstyler.cpp:452-454 isEmptyBetween. *)
Definition empty_between (a b : nat) : outcome bool :=
  do i <- skip_token a; do i <- skip_white t i; Ok (i =? b).
(** amstyler.cpp:327-368 maybeFixEmptyFunction: the edits, and whether the brace should not be split. *)
Definition fix_empty (o : ops) (body : nat) (br : option (nat * bool)) (last_rparen : nat) (first_col : bool) : outcome (ops * bool) :=
  if first_col then Ok (o, false) else
  match br with
  | None => Ok (o, false)
  | Some (rbrace, empty_body) =>
      if negb empty_body then Ok (o, false) else
      do e <- empty_between body rbrace;
      if negb e then Ok (o, false) else
      if line_of t last_rparen =? line_of t body then
        if line_of t body =? line_of t rbrace then Ok (o, false)
        else Ok (remv o (S body) rbrace, true)
      else Ok (remv o (S body) rbrace, false)
  end.
(** amstyler.cpp:370-403 maybeFixCtorInitializers: the loop 390-402. *)
Fixpoint fix_inits (fuel : nat) (o : ops) (inits : list (option nat)) : outcome ops :=
  match inits with
  | [] => Ok o
  | None :: _ => Ok o                                                             (* amstyler.cpp:392-395: give up *)
  | Some r :: rest =>
      do n <- next_token fuel (S r);
      match kind n with
      | KComma =>
          if line_of t r =? line_of t n then fix_inits fuel o rest                (* 399 *)
          else fix_inits fuel (repl (insert_after o (N.of_nat r) [44%N]) n (S n) [32%N]) rest
      | _ => fix_inits fuel o rest
      end
  end.
Definition fix_ctor (fuel : nat) (o : ops) (inits : list (option nat)) : outcome ops :=
  if length inits <=? 1 then Ok o else fix_inits fuel o inits.
(** amstyler.cpp:288-296: the last-appearing initializer, by line. *)
Fixpoint last_rparen (acc : nat) (inits : list (option nat)) : nat :=
  match inits with
  | [] => acc
  | None :: rest => last_rparen acc rest
  | Some r :: rest => last_rparen (if line_of t acc <? line_of t r then r else acc) rest
  end.
(** amstyler.cpp:236-324 VisitFunctionDecl; [seen] is visited_. *)
Definition visit_func (fuel : nat) (st : ops * list nat) (f : func) : outcome (ops * list nat) :=
  let (o, seen) := st in
  if negb (f_main f) then Ok st
  else if existsb (Nat.eqb (f_start f)) seen then Ok st
  else
    do o <- match f_operator f with Some e => fix_operator o e | None => Ok o end;
    match f_body f with
    | None => Ok (o, seen)
    | Some (body, br) =>
        do o <- match f_ctor f with Some l => fix_ctor fuel o l | None => Ok o end;
        match f_type f with
        | None => Ok (o, seen)
        | Some (tb, te) =>
            let seen := f_start f :: seen in
            let first_col := (col_of t tb =? 1) || (col_of t (f_name f) =? 1) in
            match f_ctor f with
            | Some [] => Ok (o, seen)
            | Some inits =>
                let last := last_rparen te inits in
                do (o, _) <- fix_empty o body br last first_col;
                if (line_of t last =? line_of t body) && negb (line_of t te =? line_of t body)
                then do o <- split_brace_after o tb last body; Ok (o, seen)
                else Ok (o, seen)
            | None =>
                do (o, cannot_split) <- fix_empty o body br te first_col;
                if negb cannot_split && (first_col || negb (line_of t tb =? line_of t te)) && (line_of t te =? line_of t body)
                then do e <- first_white_before fuel te body; do o <- split_brace o tb e body; Ok (o, seen)
                else Ok (o, seen)
            end
        end
    end.
(** A file: the nodes in the order RecursiveASTVisitor meets them. *)
(** tools/restyler/amstyler.cpp:193-236, the Visit functions. *)
Inductive node := NCond (s : cond) | NFor (s : cond) (rparen : nat) | NCatch (s : cond) (decl_end : option nat) | NFunc (f : func).
(** tools/restyler/amstyler.cpp:193-236. *)
Definition visit (fuel : nat) (st : ops * list nat) (n : node) : outcome (ops * list nat) :=
  match n with
  | NCond s => do o <- handle_cond fuel (fst st) s; Ok (o, snd st)
  | NFor s r => do o <- visit_for (fst st) s r; Ok (o, snd st)
  | NCatch s e => do o <- visit_catch fuel (fst st) s e; Ok (o, snd st)
  | NFunc f => visit_func fuel st f
  end.
(** tools/restyler/amstyler.cpp:193-236. *)
Fixpoint visit_all (fuel : nat) (st : ops * list nat) (ns : list node) : outcome (ops * list nat) :=
  match ns with
  | [] => Ok st
  | n :: r => do st <- visit fuel st n; visit_all fuel st r
  end.
End Styler.
