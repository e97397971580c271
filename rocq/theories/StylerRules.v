(** Specification for the restyler: the documented rules, as the set of edits they ask for.  Positions are offsets into the
    text; an edit is Op kind offset length text (what applying it means: RewriteSpec.edited). *)
From Verif Require Import Base RewriteModel RewriteSpec StylerModel StylerSpec.
Local Open Scope nat_scope.

Section Rules.
Variable t : text.
Variable tok_end : nat -> nat.
Variable kind : nat -> tk.
Notation line := (line_of t).

(** Positions a, ..., b - 1 become a line break and the indentation of the line that position [i] is on. *)
Definition own_line (i a b : nat) (op : operation N) : Prop :=
  exists ind, leading t i ind /\ op = Op Replace (N.of_nat a) (N.of_nat (b - a)) (NL :: ind).

(** Statements with parentheses: the brace of the body gets a line of its own if the parentheses span lines and the brace is
    on the line of the closing one. *)
Definition statement_rule (s : cond) (op : operation N) : Prop :=
  c_main s = true /\ c_compound s = true /\
  exists p, follows_paren t p (c_body s) /\ line (c_start s) <> line p /\ line p = line (c_body s) /\
    own_line (c_start s) (S p) (c_body s) op.

(** "operator" and the symbol are separated by a space. *)
Definition operator_rule (f : func) (op : operation N) : Prop :=
  exists e, f_operator f = Some e /\ solid t e /\ op = Op InsertAt (N.of_nat e) 0%N [32%N].

(** Comma-first initializers: a comma on a later line than the initializer [r] before it moves behind [r]; a space is left
    in its place.  Initializers behind one that clang has no position for are left alone. *)
Definition comma_rule (f : func) (op : operation N) : Prop :=
  f_body f <> None /\
  exists inits known r rest n, f_ctor f = Some inits /\ 2 <= length inits /\ inits = map Some known ++ Some r :: rest /\
    reaches t tok_end kind (S r) n /\ kind n = KComma /\ line r <> line n /\
    (op = Op InsertAfter (N.of_nat r) 0%N [44%N] \/ op = Op Replace (N.of_nat n) 1%N [32%N]).

(** The type or the name is in the first column (an out-of-line definition). *)
Definition first_column (f : func) (tb : nat) : Prop := col_of t tb = 1 \/ col_of t (f_name f) = 1.
(** The body contains nothing, not even a comment, and the function is not in the first column. *)
Definition hollow (f : func) (tb b rb : nat) : Prop :=
  f_body f = Some (b, Some (rb, true)) /\ ~ first_column f tb /\ blank_between t (S b) rb.
(** The parenthesis before the brace: of the prototype, or of the initializer that appears last. *)
Definition last_paren (f : func) (te p : nat) : Prop :=
  match f_ctor f with None => p = te | Some inits => inits <> [] /\ last_alone t te inits p end.
(** The braces of such a function are joined, unless everything is on one line already. *)
Definition empty_rule (f : func) (op : operation N) : Prop :=
  exists tb te b rb p, f_type f = Some (tb, te) /\ hollow f tb b rb /\ last_paren f te p /\
    ~ (line p = line b /\ line b = line rb) /\
    op = Op Remove (N.of_nat (S b)) (N.of_nat (rb - S b)) [].

(** The brace of a function gets a line of its own if the function is in the first column or its prototype spans lines, the
    brace is on the line the prototype ends on, and the braces were not just joined. *)
Definition function_rule (f : func) (op : operation N) : Prop :=
  f_ctor f = None /\
  exists tb te b br e, f_type f = Some (tb, te) /\ f_body f = Some (b, br) /\
    (first_column f tb \/ line tb <> line te) /\ line te = line b /\
    ~ (exists rb, hollow f tb b rb /\ line b <> line rb) /\
    leads t tok_end te e b /\ own_line tb e b op.
(** The brace of a constructor with initializers gets a line of its own if it is on the line of the last initializer and
    that is not the line the prototype ends on. *)
Definition constructor_rule (f : func) (op : operation N) : Prop :=
  exists inits tb te b br p, f_ctor f = Some inits /\ inits <> [] /\ f_type f = Some (tb, te) /\ f_body f = Some (b, br) /\
    last_alone t te inits p /\ line p = line b /\ line te <> line b /\ own_line tb (S p) b op.

Definition wanted (n : node) (op : operation N) : Prop :=
  match n with
  | NCond s | NFor s _ | NCatch s _ => statement_rule s op
  | NFunc f => f_main f = true /\
      (operator_rule f op \/ comma_rule f op \/ empty_rule f op \/ function_rule f op \/ constructor_rule f op)
  end.
(** What the rules ask for in a file: declarations at the start of a function definition met before are left alone. *)
Definition asked (ns : list node) (op : operation N) : Prop :=
  exists before n after, ns = before ++ n :: after /\ wanted n op /\ ~ exists m, In m before /\ again m n.

(** A statement, or the type of a function, starts with a token. *)
Definition starts (n : node) : Prop :=
  match n with
  | NCond s | NFor s _ | NCatch s _ => solid t (c_start s)
  | NFunc f => forall tb te, f_type f = Some (tb, te) -> solid t tb
  end.
End Rules.
