(** Specification of command-line parsing: a grammar of argument vectors, independent of how the parser scans. *)
From Coq Require Import String.
From Verif Require Import Base ArgModel.
Local Open Scope nat_scope.
Local Open Scope list_scope.

(** * Texts denoting values *)
Inductive decimal : str -> Z -> Prop :=
| decimal_one d : (0 <= d <= 9)%Z -> decimal [Z.to_N (48 + d)] d
| decimal_more s z d : decimal s z -> (0 <= d <= 9)%Z -> decimal (s ++ [Z.to_N (48 + d)]) (10 * z + d)%Z.
(** Blanks, an optional sign, decimal digits. *)
Definition blank (c : N) : Prop := In c [32; 9; 10; 11; 12; 13]%N.
Inductive integer : str -> Z -> Prop :=
| integer_text sp sg ds m z :
    Forall blank sp -> decimal ds m ->
    (sg = [] /\ z = m \/ sg = lit "+" /\ z = m \/ sg = lit "-" /\ z = (- m)%Z) ->
    integer (sp ++ sg ++ ds) z.
Definition int_range (z : Z) : Prop := (- 2 ^ 31 <= z < 2 ^ 31)%Z.
(** Saturation at the ends of [long], then reduction to 32 bits: what a number outside [int] turns into. *)
Definition squeeze (long_bits z : Z) : Z :=
  to_int (if (z <? - 2 ^ (long_bits - 1))%Z then - 2 ^ (long_bits - 1)
          else if (2 ^ (long_bits - 1) <=? z)%Z then 2 ^ (long_bits - 1) - 1 else z)%Z.
(** Equality of texts up to ASCII case. *)
Definition lower_ascii (c : N) : N := if ((65 <=? c) && (c <=? 90))%N then (c + 32)%N else c.
Definition same_nocase (a b : str) : Prop := List.map lower_ascii a = List.map lower_ascii b.

Inductive reads_as (long_bits : Z) : policy -> str -> value -> Prop :=
| reads_str s : s <> [] -> reads_as long_bits PStr s (VStr s)
| reads_true s : same_nocase s (lit "true") -> reads_as long_bits PBool s (VBool true)
| reads_false s : same_nocase s (lit "false") -> reads_as long_bits PBool s (VBool false)
| reads_int s z : integer s z -> reads_as long_bits PInt s (VInt (squeeze long_bits z)).

(** * Names *)
Definition no_prefix : str := lit "no-".
Record cfg_ok (c : cfg) : Prop := {
  ok_name : forall o n, In o (options c) -> o_short o = Some n \/ o_long o = Some n ->
              n <> [] /\ chr n 0 <> c_dash /\ ~ In c_eq n /\ (inline_values c = true -> ~ In c_colon n) /\ ~ In 0%N n;
  ok_short : forall i j oi oj n, nth_error (options c) i = Some oi -> nth_error (options c) j = Some oj ->
              o_short oi = Some n -> o_short oj = Some n -> i = j;
  ok_long : forall i j oi oj n, nth_error (options c) i = Some oi -> nth_error (options c) j = Some oj ->
              o_long oi = Some n -> o_long oj = Some n -> i = j;
  ok_no : forall o o' n, In o (options c) -> In o' (options c) -> o_kind o = KEnable -> o_long o = Some n ->
              o_long o' <> Some (no_prefix ++ n)
}.
(** The state belongs to this parser. *)
Definition fits (c : cfg) (st : pstate) : Prop :=
  length (vals st) = length (options c) /\ length (pvals st) = length (positionals c).

Inductive spelling := Long | Short | Slash.
Definition lead (sp : spelling) : str := match sp with Long => lit "--" | Short => lit "-" | Slash => lit "/" end.
(** Option number [i], described by [o], may be written [lead sp ++ n]. *)
Definition spelled (c : cfg) (sp : spelling) (i : nat) (o : optd) (n : str) : Prop :=
  nth_error (options c) i = Some o
  /\ match sp with
     | Long => o_long o = Some n
     | Short => o_short o = Some n
     | Slash => allow_slashes c = true /\ o_short o = Some n
     end.
(** [body] is a name and an attached value: name=value, or, with inline values, name:value.  With inline values an
    empty value does not count, and ':' only separates if there is no '='. *)
Definition attached (inline : bool) (body n v : str) : Prop :=
  (body = n ++ c_eq :: v /\ ~ In c_eq n /\ (inline = true -> v <> []))
  \/ (inline = true /\ body = n ++ c_colon :: v /\ ~ In c_eq body /\ ~ In c_colon n /\ v <> []).
(** With inline values, a one-character short option may be followed directly by its value, unless what stands
    before the separator (or the whole) is itself a short option. *)
Definition glued (c : cfg) (sp : spelling) (i : nat) (o : optd) (ch : N) (v : str) : Prop :=
  inline_values c = true /\ sp <> Long /\ spelled c sp i o [ch] /\ v <> []
  /\ (forall n w, attached true (ch :: v) n w -> forall o', In o' (options c) -> o_short o' <> Some n)
  /\ ((forall n w, ~ attached true (ch :: v) n w) ->
      forall o', In o' (options c) -> o_short o' <> Some (ch :: v)).

(** The argument is an option's name with its lead, alone or with an attached value. *)
Definition refers (c : cfg) (a : str) : Prop :=
  exists sp i o n body, a = lead sp ++ body /\ spelled c sp i o n
    /\ (body = n \/ exists v, attached (inline_values c) body n v).
(** ... or a one-character short option with its value stuck to it. *)
Definition stuck (c : cfg) (a : str) : Prop := exists sp i o ch v, a = lead sp ++ ch :: v /\ glued c sp i o ch v.
(** ... or "--no-" and the long name of option i. *)
Definition negates (c : cfg) (a : str) (i : nat) (o : optd) (n : str) : Prop :=
  spelled c Long i o n /\ exists b, a = lead Long ++ no_prefix ++ b
    /\ (b = n \/ exists v, attached (inline_values c) b n v).
(** The option the parser's own constructor adds for help (548-564). *)
Definition help_ok (c : cfg) : Prop :=
  forall i, help c = Some i -> exists o, nth_error (options c) i = Some o /\ o_kind o = KStop /\ o_default o = Some (VBool false).

(** * Kinds *)
(** The text policy of an option that takes a value. *)
Definition takes (k : kind) : option policy := match k with KOption p | KRepeat p => Some p | _ => None end.
(** The option may be given (again): a repeat option always, others if they have no value yet. *)
Definition free (st : pstate) (i : nat) (o : optd) : Prop :=
  (exists p, o_kind o = KRepeat p) \/ nth_error (vals st) i = Some [].
(** Option [i] receives [x]: appended for a repeat option. *)
Definition given (st : pstate) (i : nat) (o : optd) (x : value) : pstate :=
  PState (match nth_error (vals st) i with
          | Some vs => upd (vals st) i (match o_kind o with KRepeat _ => vs ++ [x] | _ => [x] end)
          | None => vals st
          end) (pvals st) (extra st) (passthru st) (has_pass st) (error st).
Definition given_pos (st : pstate) (i : nat) (x : value) : pstate :=
  PState (vals st) (upd (pvals st) i (Some x)) (extra st) (passthru st) (has_pass st) (error st).
Definition add_extra (st : pstate) (a : str) : pstate :=
  PState (vals st) (pvals st) (extra st ++ [a]) (passthru st) (has_pass st) (error st).
Definition add_pass (st : pstate) (a : str) : pstate :=
  PState (vals st) (pvals st) (extra st) (passthru st ++ [a]) (has_pass st) (error st).
Definition start_pass (st : pstate) : pstate :=
  PState (vals st) (pvals st) (extra st) (passthru st) true (error st).
(** What mentioning a valueless option gives: an EnableOption true, toggles and stops the opposite of the default. *)
Definition flag_value (o : optd) : option value :=
  match o_kind o with
  | KEnable => Some (VBool true)
  | KToggle | KStop => Some (VBool (negb (match o_default o with Some (VBool b) => b | _ => false end)))
  | _ => None
  end.
Definition option_like (c : cfg) (a : str) : Prop :=
  chr a 0 = c_dash \/ (allow_slashes c = true /\ chr a 0 = c_slash).

(** * The grammar: [reads c st pos args st' pos' halted] *)
Section Grammar.
Variable long_bits : Z.
Variable c : cfg.
Inductive reads : pstate -> nat -> list str -> pstate -> nat -> bool -> Prop :=
| r_end st pos : reads st pos [] st pos false
(* --name=value, -n=value, /n=value *)
| r_attached st pos sp i o n v body p x rest st' pos' h :
    has_pass st = false -> spelled c sp i o n -> attached (inline_values c) body n v ->
    takes (o_kind o) = Some p -> free st i o -> reads_as long_bits p v x ->
    reads (given st i o x) pos rest st' pos' h ->
    reads st pos ((lead sp ++ body) :: rest) st' pos' h
(* -nvalue *)
| r_glued st pos sp i o ch v p x rest st' pos' h :
    has_pass st = false -> glued c sp i o ch v ->
    takes (o_kind o) = Some p -> free st i o -> reads_as long_bits p v x ->
    reads (given st i o x) pos rest st' pos' h ->
    reads st pos ((lead sp ++ ch :: v) :: rest) st' pos' h
(* --name value *)
| r_spaced st pos sp i o n v p x rest st' pos' h :
    has_pass st = false -> spelled c sp i o n ->
    takes (o_kind o) = Some p -> free st i o -> reads_as long_bits p v x ->
    reads (given st i o x) pos rest st' pos' h ->
    reads st pos ((lead sp ++ n) :: v :: rest) st' pos' h
(* a boolean option at the very end *)
| r_bool_last st pos sp i o n :
    has_pass st = false -> spelled c sp i o n -> o_kind o = KOption PBool -> free st i o ->
    reads st pos [lead sp ++ n] (given st i o (VBool true)) pos false
(* DEFECT: a boolean option followed by something that is not a boolean literal is accepted and ignored *)
| r_bool_ignored st pos sp i o n next rest st' pos' h :
    has_pass st = false -> spelled c sp i o n -> o_kind o = KOption PBool -> free st i o ->
    (forall x, ~ reads_as long_bits PBool next x) ->
    reads st pos (next :: rest) st' pos' h ->
    reads st pos ((lead sp ++ n) :: next :: rest) st' pos' h
(* DEFECT: so is an attached value that is not a boolean literal *)
| r_bool_attached_ignored st pos sp i o n v body rest st' pos' h :
    has_pass st = false -> spelled c sp i o n -> attached (inline_values c) body n v ->
    o_kind o = KOption PBool -> free st i o -> (forall x, ~ reads_as long_bits PBool v x) ->
    reads st pos rest st' pos' h ->
    reads st pos ((lead sp ++ body) :: rest) st' pos' h
| r_bool_glued_ignored st pos sp i o ch v rest st' pos' h :
    has_pass st = false -> glued c sp i o ch v ->
    o_kind o = KOption PBool -> free st i o -> (forall x, ~ reads_as long_bits PBool v x) ->
    reads st pos rest st' pos' h ->
    reads st pos ((lead sp ++ ch :: v) :: rest) st' pos' h
(* --flag *)
| r_flag st pos sp i o n x rest st' pos' h :
    has_pass st = false -> spelled c sp i o n -> free st i o ->
    flag_value o = Some x -> o_kind o <> KStop ->
    reads (given st i o x) pos rest st' pos' h ->
    reads st pos ((lead sp ++ n) :: rest) st' pos' h
(* --no-flag *)
| r_no_flag st pos i o n rest st' pos' h :
    has_pass st = false -> spelled c Long i o n -> free st i o -> o_kind o = KEnable ->
    reads (given st i o (VBool false)) pos rest st' pos' h ->
    reads st pos ((lead Long ++ no_prefix ++ n) :: rest) st' pos' h
(* a stop option: the rest does not matter *)
| r_stop st pos sp i o n x rest :
    has_pass st = false -> spelled c sp i o n -> free st i o ->
    o_kind o = KStop -> flag_value o = Some x ->
    reads st pos ((lead sp ++ n) :: rest) (given st i o x) pos true
(* arguments that are not options: positionals in order, then extras *)
| r_positional st pos a p x rest st' pos' h :
    has_pass st = false -> ~ option_like c a -> nth_error (positionals c) pos = Some p -> reads_as long_bits p a x ->
    reads (given_pos st pos x) (S pos) rest st' pos' h ->
    reads st pos (a :: rest) st' pos' h
| r_extra st pos a rest st' pos' h :
    has_pass st = false -> ~ option_like c a -> length (positionals c) <= pos -> collect_extra c = true ->
    reads (add_extra st a) pos rest st' pos' h ->
    reads st pos (a :: rest) st' pos' h
(* "--": everything after it is passed through (DEFECT: except further "--") *)
| r_dashes st pos rest st' pos' h :
    allow_pass c = true ->
    reads (start_pass st) pos rest st' pos' h ->
    reads st pos (lit "--" :: rest) st' pos' h
| r_passed st pos a rest st' pos' h :
    has_pass st = true -> (allow_pass c = true -> a <> lit "--") ->
    reads (add_pass st a) pos rest st' pos' h ->
    reads st pos (a :: rest) st' pos' h.
End Grammar.

(** * Command lines written from a list of settings *)
Inductive setting :=
| Give (i : nat) (x : value)      (* option number i is given the value x *)
| Place (k : nat) (x : value)     (* positional number k is given the value x *)
| Also (a : str).                 (* an extra argument *)

(** The ways to write one setting. *)
Inductive written (long_bits : Z) (c : cfg) : setting -> list str -> Prop :=
| w_equals sp i o n v p x :       (* --name=value  -n=value  /n=value *)
    spelled c sp i o n -> takes (o_kind o) = Some p -> reads_as long_bits p v x ->
    (inline_values c = true -> v <> []) ->
    written long_bits c (Give i x) [lead sp ++ n ++ c_eq :: v]
| w_colon sp i o n v p x :        (* --name:value etc., inline values enabled, no '=' in the value *)
    spelled c sp i o n -> takes (o_kind o) = Some p -> reads_as long_bits p v x ->
    inline_values c = true -> v <> [] -> ~ In c_eq v ->
    written long_bits c (Give i x) [lead sp ++ n ++ c_colon :: v]
| w_space sp i o n v p x :        (* --name value *)
    spelled c sp i o n -> takes (o_kind o) = Some p -> reads_as long_bits p v x ->
    written long_bits c (Give i x) [lead sp ++ n; v]
| w_glued sp i o ch v p x :       (* -nvalue *)
    glued c sp i o ch v -> takes (o_kind o) = Some p -> reads_as long_bits p v x ->
    written long_bits c (Give i x) [lead sp ++ ch :: v]
| w_flag sp i o n x :             (* --flag *)
    spelled c sp i o n -> flag_value o = Some x -> o_kind o <> KStop ->
    written long_bits c (Give i x) [lead sp ++ n]
| w_no i o n :                    (* --no-flag *)
    spelled c Long i o n -> o_kind o = KEnable ->
    written long_bits c (Give i (VBool false)) [lead Long ++ no_prefix ++ n]
| w_place k p a x :
    nth_error (positionals c) k = Some p -> ~ option_like c a -> reads_as long_bits p a x ->
    written long_bits c (Place k x) [a]
| w_also a : collect_extra c = true -> ~ option_like c a -> written long_bits c (Also a) [a].

(** Values given to option [i], in order; values placed; extras. *)
Definition gives (i : nat) (ss : list setting) : list value :=
  flat_map (fun s => match s with Give j x => if j =? i then [x] else [] | _ => [] end) ss.
Definition placed (ss : list setting) : list value :=
  flat_map (fun s => match s with Place _ x => [x] | _ => [] end) ss.
Definition extras (ss : list setting) : list str :=
  flat_map (fun s => match s with Also a => [a] | _ => [] end) ss.
(** Positionals are numbered in order from [k]; extras only come once every positional has been placed. *)
Fixpoint in_order (c : cfg) (k : nat) (ss : list setting) : Prop :=
  match ss with
  | [] => True
  | Give _ _ :: r => in_order c k r
  | Place j _ :: r => j = k /\ in_order c (S k) r
  | Also _ :: r => length (positionals c) <= k /\ in_order c k r
  end.
(** Options that do not repeat are given at most once. *)
Definition once (c : cfg) (ss : list setting) : Prop :=
  forall i o, nth_error (options c) i = Some o -> (forall p, o_kind o <> KRepeat p) -> length (gives i ss) <= 1.

(** [args] is a command line (not necessarily with all positionals) that says [ss]. *)
Definition says (long_bits : Z) (c : cfg) (ss : list setting) (args : list str) : Prop :=
  exists parts, Forall2 (written long_bits c) ss parts /\ args = concat parts /\ in_order c 0 ss /\ once c ss.
(** The parser holds exactly what [ss] says and nothing else. *)
Definition holds (c : cfg) (ss : list setting) (st : pstate) : Prop :=
  (forall i, i < length (options c) -> nth_error (vals st) i = Some (gives i ss))
  /\ length (vals st) = length (options c)
  /\ pvals st = map Some (placed ss) ++ repeat None (length (positionals c) - length (placed ss))
  /\ extra st = extras ss /\ passthru st = [] /\ has_pass st = false /\ error st = None.

(** [l] is [l'] with some elements left out, the order kept. *)
Inductive subseq {A} : list A -> list A -> Prop :=
| sub_nil : subseq [] []
| sub_skip x l l' : subseq l l' -> subseq l (x :: l')
| sub_keep x l l' : subseq l l' -> subseq (x :: l) (x :: l').

(** The name an option's body starts with: what stands before an attached value, or all of it. *)
Definition named (inline : bool) (body n : str) : Prop :=
  (exists v, attached inline body n v) \/ (body = n /\ forall m v, ~ attached inline body m v).
(** "--no-" followed by something that is not the name of a long option (and the whole is not either). *)
Definition no_of_unknown (c : cfg) (a : str) : Prop :=
  exists b n, a = lead Long ++ no_prefix ++ b /\ named (inline_values c) b n
    /\ forall o, In o (options c) -> o_long o <> Some n /\ o_long o <> Some (no_prefix ++ n).
(** Parser histories. *)
Inductive pcall := Parse (args : list str) | Reset.
Inductive reaches (long_bits : Z) (c : cfg) : pstate -> list pcall -> pstate -> Prop :=
| h_nil st : reaches long_bits c st [] st
| h_parse st args b st1 cs st' : parse long_bits c st args = Ok (b, st1) -> reaches long_bits c st1 cs st' ->
    reaches long_bits c st (Parse args :: cs) st'
| h_reset st cs st' : reaches long_bits c (reset c st) cs st' -> reaches long_bits c st (Reset :: cs) st'.
(** parse() returned false, and this was the reason. *)
Definition rejects (long_bits : Z) (c : cfg) (args : list str) (e : perr) : Prop :=
  exists st, parse long_bits c (init c) args = Ok (false, st) /\ error st = Some e.
