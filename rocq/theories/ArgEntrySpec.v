(** What the ways into the argument parser should do, in terms of the history of the program: which options a
    parser has, and what a parser would do if it were alone. *)
From Coq Require Import Ascii String.
From Verif Require Import Base ArgModel ArgEntryModel.
Local Open Scope nat_scope.
Local Open Scope list_scope.

(** The static options constructed in a history, in order; those constructed with parser [k]; the modes set. *)
Fixpoint static_opts (es : list event) : list optd :=
  match es with [] => [] | EStaticOpt o :: es => o :: static_opts es | _ :: es => static_opts es end.
Fixpoint static_poss (es : list event) : list policy :=
  match es with [] => [] | EStaticPos o :: es => o :: static_poss es | _ :: es => static_poss es end.
Fixpoint own_opts (k : nat) (es : list event) : list optd :=
  match es with
  | [] => []
  | EOpt k' o :: es => if k' =? k then o :: own_opts k es else own_opts k es
  | _ :: es => own_opts k es
  end.
Fixpoint own_poss (k : nat) (es : list event) : list policy :=
  match es with
  | [] => []
  | EPos k' o :: es => if k' =? k then o :: own_poss k es else own_poss k es
  | _ :: es => own_poss k es
  end.
Fixpoint parsers_made (es : list event) : nat :=
  match es with [] => 0 | EParser _ :: es => S (parsers_made es) | _ :: es => parsers_made es end.
Definition asked (k : nat) (m : mode) (es : list event) : Prop := In (EMode k m) es.

(** A parser alone in the program: its options with their values, and the rest of its state.  The functions used
    are those of the single-parser model. *)
Section Alone.
Variable long_bits : Z.
Definition with_opt (c : cfg) (o : optd) : cfg :=
  Cfg (options c ++ [o]) (positionals c) (inline_values c) (allow_slashes c) (collect_extra c) (allow_pass c) (help c).
Definition with_pos (c : cfg) (p : policy) : cfg :=
  Cfg (options c) (positionals c ++ [p]) (inline_values c) (allow_slashes c) (collect_extra c) (allow_pass c) (help c).
Definition with_mode (c : cfg) (m : mode) : cfg :=
  Cfg (options c) (positionals c) (match m with InlineValues => true | _ => inline_values c end)
    (match m with AllowSlashes => true | _ => allow_slashes c end)
    (match m with CollectExtra => true | _ => collect_extra c end)
    (match m with AllowPassthrough => true | _ => allow_pass c end) (help c).
Definition more_vals (st : pstate) : pstate :=
  PState (vals st ++ [[]]) (pvals st) (extra st) (passthru st) (has_pass st) (error st).
Definition more_pvals (st : pstate) : pstate :=
  PState (vals st) (pvals st ++ [None]) (extra st) (passthru st) (has_pass st) (error st).
(** The events that concern parser [k], applied to it alone; the results of its parse() calls. *)
Fixpoint alone (k : nat) (c : cfg) (st : pstate) (es : list event) : outcome (cfg * pstate * list bool) :=
  match es with
  | [] => Ok (c, st, [])
  | EOpt k' o :: es => if k' =? k then alone k (with_opt c o) (more_vals st) es else alone k c st es
  | EPos k' o :: es => if k' =? k then alone k (with_pos c o) (more_pvals st) es else alone k c st es
  | EMode k' m :: es => if k' =? k then alone k (with_mode c m) st es else alone k c st es
  | EParse k' args :: es =>
      if k' =? k then do (b, st) <- parse long_bits c st args; do (x, bs) <- alone k c st es; Ok (x, b :: bs)
      else alone k c st es
  | EReset k' :: es => if k' =? k then alone k c (reset c st) es else alone k c st es
  | _ :: es => alone k c st es
  end.
End Alone.
Definition fresh (hlp : bool) : cfg :=
  Cfg (if hlp then [help_option] else []) [] false false false false (if hlp then Some 0 else None).
(** The results that belong to parser [k]. *)
Fixpoint results_of (k : nat) (rs : list (nat * bool)) : list bool :=
  match rs with [] => [] | (k', b) :: rs => if k' =? k then b :: results_of k rs else results_of k rs end.
