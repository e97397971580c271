(** Model of amtl/experimental/am-argparser.h: options, value policies, Parser::parse_impl and reset.

    A C string is the list of its bytes before the terminator; reading the byte at its end gives 0, and moving a
    pointer past the terminator is a fault.  Options are referred to by their position in options_/positionals_
    instead of by pointer.  size_t subtractions that would wrap are faults (shown never to happen).  Error texts
    are kept as constructors of [perr] instead of formatted strings (StringPrintf is modelled in StrModel). *)
From Coq Require Import Ascii String.
From Verif Require Import Base.
Local Open Scope nat_scope.
Local Open Scope list_scope.

Notation str := (list N).
(** String literals. *)
(** Literals such as "--" and "true" (am-argparser.h:335, 631, 672). *)
Definition lit (s : string) : str := List.map N_of_ascii (list_ascii_of_string s).
(** C library strcmp, as used at am-argparser.h:335, 631. *)
Definition streq (a b : str) : bool := if list_eq_dec N.eq_dec a b then true else false.   (* strcmp(a, b) == 0 *)
(** Subscripts into argument strings (am-argparser.h:184-192, 641, 661). *)
Definition chr (s : str) (i : nat) : N := nth i s 0%N.                                     (* s[i], i <= strlen(s) *)
(** The characters of am-argparser.h:641, 653-655. *)
Definition c_dash : N := 45. Definition c_slash : N := 47. Definition c_eq : N := 61. Definition c_colon : N := 58.
(** Pointer arithmetic on an argument, e.g. sep + 1 and arg + 2 (am-argparser.h:656-680). *)
Definition ptr_add (s : str) (k : nat) : outcome str :=
  if k <=? List.length s then Ok (skipn k s) else Fault OutOfBounds.
(** size_t subtraction of lengths (am-argparser.h:652-680). *)
Definition size_sub (a b : nat) : outcome nat := if b <=? a then Ok (a - b) else Fault OutOfBounds.
(** strchr(s, c) for a non-zero c: the offset. *)
(** C library strchr, as used at am-argparser.h:653-655. *)
Fixpoint strchr (s : str) (c : N) : option nat :=
  match s with
  | [] => None
  | x :: t => if N.eqb x c then Some 0 else match strchr t c with Some k => Some (S k) | None => None end
  end.
(** strncmp(a, b, n) == 0. *)
(** C library strncmp, as used at am-argparser.h:672, 748, 774. *)
Fixpoint strncmp_eq (n : nat) (a b : str) : bool :=
  match n with
  | O => true
  | S k => match a, b with
           | [], [] => true
           | x :: a', y :: b' => N.eqb x y && strncmp_eq k a' b'
           | _, _ => false
           end
  end.
(** StrCaseCmp(a, b) == 0 (strcasecmp / _stricmp in the "C" locale). *)
(** tolower in the "C" locale, for StrCaseCmp (am-argparser.h:515-519). *)
Definition lower (c : N) : N := if ((65 <=? c) && (c <=? 90))%N then (c + 32)%N else c.
(** StrCaseCmp (am-platform.h), as used at am-argparser.h:515-519. *)
Definition casecmp_eq (a b : str) : bool := streq (List.map lower a) (List.map lower b).

(** strtol(arg, &end, 10): the value (clamped to long), and end as an offset; [long_bits] is 64 on LP64 and 32 on
    Windows.  No conversion: (0, 0). *)
(** White space skipped by strtol (am-argparser.h:541). *)
Definition isspace (c : N) : bool := (N.eqb c 32 || ((9 <=? c) && (c <=? 13)))%N.
(** Digits read by strtol in base 10 (am-argparser.h:541). *)
Definition isdigit (c : N) : bool := ((48 <=? c) && (c <=? 57))%N.
(** Part of strtol (am-argparser.h:541). *)
Fixpoint skip_spaces (s : str) : nat :=
  match s with c :: t => if isspace c then S (skip_spaces t) else 0 | [] => 0 end.
(** Part of strtol (am-argparser.h:541). *)
Fixpoint digits (s : str) (acc : Z) : Z * nat :=
  match s with
  | c :: t => if isdigit c
              then let (v, n) := digits t (10 * acc + (Z.of_N c - 48))%Z in (v, S n)
              else (acc, 0)
  | [] => (acc, 0)
  end.
(** LONG_MIN / LONG_MAX on overflow, part of strtol (am-argparser.h:541). *)
Definition clamp (long_bits v : Z) : Z :=
  Z.max (- 2 ^ (long_bits - 1)) (Z.min v (2 ^ (long_bits - 1) - 1)).
(** C library strtol with base 10, as called at am-argparser.h:541. *)
Definition strtol (long_bits : Z) (s : str) : Z * nat :=
  let a := skip_spaces s in
  let r := skipn a s in
  let '(neg, b, r) := match r with
                      | c :: t => if N.eqb c 45 then (true, 1, t) else if N.eqb c 43 then (false, 1, t) else (false, 0, r)
                      | [] => (false, 0, r)
                      end in
  let (v, n) := digits r 0 in
  if n =? 0 then (0%Z, 0) else (clamp long_bits (if neg : bool then - v else v), a + b + n).
(** long to int: modulo 2^32. *)
(** The assignment of a long to *out, an int (am-argparser.h:541). *)
Definition to_int (v : Z) : Z := ((v + 2 ^ 31) mod 2 ^ 32 - 2 ^ 31)%Z.

(** * Options *)
(** Values of the three ValueTypes that have a ValuePolicy (am-argparser.h:504-546). *)
Inductive value := VBool (b : bool) | VStr (s : str) | VInt (z : Z).
Inductive policy := PBool | PStr | PInt.               (* ValuePolicy<bool>, <std::string>, <int>, am-argparser.h:504-546 *)
Inductive kind :=
| KOption (p : policy)                                 (* Option<T> am-argparser.h:238-308 *)
| KEnable                                              (* EnableOption am-argparser.h:310-356 *)
| KToggle                                              (* ToggleOption am-argparser.h:358-410 *)
| KStop                                                (* StopOption am-argparser.h:412-433 *)
| KRepeat (p : policy).                                (* VectorOption / RepeatOption am-argparser.h:434-494 *)
(** The fields of an option object (am-argparser.h:218-222, 305-307). *)
Record optd := Opt {
  o_short : option str;                                (* after the constructor removed a leading "-" *)
  o_long : option str;                                 (* after the constructor removed a leading "--" *)
  o_kind : kind;
  o_default : option value                             (* default_value_ *)
}.
(** am-argparser.h:176-195 IOption's constructor: a leading "-" / "--" of the given forms is dropped; the assertions. *)
Definition strip_short (s : str) : str := if N.eqb (chr s 0) c_dash then skipn 1 s else s.
Definition strip_long (s : str) : str :=
  if N.eqb (chr s 0) c_dash && N.eqb (chr s 1) c_dash then skipn 2 s else s.
Definition good_form (s : option str) : bool :=
  match s with Some s => negb (N.eqb (chr s 0) 0) && negb (N.eqb (chr s 0) c_dash) | None => true end.
Definition is_null {A} (s : option A) : bool := match s with Some _ => false | None => true end.
Definition make_option (debug : bool) (short long : option str) (k : kind) (d : option value) : outcome optd :=
  do _ <- assert_ debug (negb (is_null short) || negb (is_null long));     (* name_ is null *)
  let short := option_map strip_short short in
  let long := option_map strip_long long in
  do _ <- assert_ debug (good_form short);
  do _ <- assert_ debug (good_form long);
  Ok (Opt short long k d).
(** Positionals are Option<T> constructed with a name. *)
(** The fields of Parser that are set before parsing (am-argparser.h:131-146). *)
Record cfg := Cfg {
  options : list optd;
  positionals : list policy;
  inline_values : bool; allow_slashes : bool; collect_extra : bool; allow_pass : bool;
  help : option nat                                    (* help_option_, as an index into options_ *)
}.

(** The error texts of am-argparser.h:781-822, by the function that formats them. *)
Inductive perr :=
| Unrecognized (arg : str) | UnrecognizedExtra | NeedsValue (i : nat) | InvalidValue (positional : bool) (i : nat) (v : str)
| MissingPositional (i : nat) | AlreadySpecified (i : nat).
(** What parsing changes: value_ of each option (am-argparser.h:307, 355, 409, 479) and error_, extra_args_, passthrough_args_, has_passthrough_args_ of Parser (131-146). *)
Record pstate := PState {
  vals : list (list value);     (* per option: value_ (none or one value), or values_ of a RepeatOption *)
  pvals : list (option value);  (* per positional: value_ *)
  extra : list str;
  passthru : list str;
  has_pass : bool;
  error : option perr           (* error_; None when empty *)
}.
(** Freshly constructed options and parser (am-argparser.h:131-146, 305-307). *)
Definition init (c : cfg) : pstate :=
  PState (List.map (fun _ => []) (options c)) (List.map (fun _ => None) (positionals c)) [] [] false None.
(** Assignment to error_ in am-argparser.h:781-822. *)
Definition set_error (st : pstate) (e : perr) : pstate :=
  PState (vals st) (pvals st) (extra st) (passthru st) (has_pass st) (Some e).

(** Virtual methods, by class. *)
(** mustOmitValue: am-argparser.h:152-154, 346-348, 394-396. *)
Definition must_omit (k : kind) : bool := match k with KEnable | KToggle | KStop => true | _ => false end.
(** canOmitValue: am-argparser.h:155-157, 291-293, 391-393, with 499-501 and 506-508. *)
Definition can_omit (k : kind) : bool :=
  match k with KOption PBool | KToggle | KStop => true | _ => false end.
(** haltOnValue: am-argparser.h:158-160, 430-432. *)
Definition halts (k : kind) : bool := match k with KStop => true | _ => false end.
(** canPrefixWithNo: am-argparser.h:161-163, 349-351. *)
Definition prefix_no (k : kind) : bool := match k with KEnable => true | _ => false end.
(** willRepeat: am-argparser.h:166-168, 286-288, 341-343, 386-388, 474-476. *)
Definition will_repeat (k : kind) (vs : list value) : bool :=
  match k with KRepeat _ => true | _ => match vs with [] => true | _ => false end end.

Section Parse.
Variable long_bits : Z.

(** am-argparser.h:510-524, 529-534, 539-545; [None] is a null pointer: strlen(nullptr) and strtol(nullptr) are undefined. *)
Definition policy_consume (p : policy) (arg : option str) : outcome (option value) :=
  match p with
  | PBool =>
      match arg with
      | None => Ok (Some (VBool true))
      | Some a => if casecmp_eq a (lit "true") then Ok (Some (VBool true))
                  else if casecmp_eq a (lit "false") then Ok (Some (VBool false)) else Ok None
      end
  | PStr => match arg with
            | None => Fault NullDeref
            | Some [] => Ok None
            | Some a => Ok (Some (VStr a))
            end
  | PInt => match arg with
            | None => Fault NullDeref
            | Some a => let (v, e) := strtol long_bits a in
                        if (e =? 0) || negb (N.eqb (chr a e) 0) then Ok None else Ok (Some (VInt (to_int v)))
            end
  end.
(** consumeValue; Enable am-argparser.h:334-337 (strcmp with a null argument is undefined), Toggle 397-402. *)
Definition consume (o : optd) (arg : option str) : outcome (option value) :=
  match o_kind o with
  | KOption p | KRepeat p => policy_consume p arg
  | KEnable => match arg with
               | None => Fault NullDeref
               | Some a => Ok (Some (VBool (streq a (lit "true"))))
               end
  | KToggle | KStop =>
      match arg with
      | Some _ => Ok None
      | None => Ok (Some (VBool (negb (match o_default o with Some (VBool b) => b | _ => false end))))
      end
  end.
(** value_ = Some(value) / values_.emplace_back(value). *)
(** am-argparser.h:298, 335, 398-401 (value_ = Some(..)) and emplace_back of a repeated option (464-470). *)
Definition assign (k : kind) (vs : list value) (v : value) : list value :=
  match k with KRepeat _ => vs ++ [v] | _ => [v] end.
(** The assignment of am-argparser.h:298, 335, 398-401, 464-470, for the option with index [i]. *)
Definition store (c : cfg) (st : pstate) (i : nat) (v : value) : pstate :=
  PState (match nth_error (options c) i, nth_error (vals st) i with
          | Some o, Some vs => upd (vals st) i (assign (o_kind o) vs v)
          | _, _ => vals st
          end) (pvals st) (extra st) (passthru st) (has_pass st) (error st).
Definition store_pos (st : pstate) (i : nat) (v : value) : pstate :=
  PState (vals st) (upd (pvals st) i (Some v)) (extra st) (passthru st) (has_pass st) (error st).

(** am-argparser.h:741-753 find_short, 767-779 find_long, 755-765 find_inline_short: the first match. *)
Fixpoint find_idx (f : optd -> bool) (os : list optd) : option nat :=
  match os with
  | [] => None
  | o :: t => if f o then Some 0 else match find_idx f t with Some k => Some (S k) | None => None end
  end.
Definition name_matches (form : option str) (s : str) (len : nat) : bool :=
  match form with
  | None => false
  | Some n => (List.length n =? len) && strncmp_eq len n s
  end.
Definition find_short (c : cfg) (s : str) (len : nat) : option nat :=
  find_idx (fun o => name_matches (o_short o) s len) (options c).
Definition find_long (c : cfg) (s : str) (len : nat) : option nat :=
  find_idx (fun o => name_matches (o_long o) s len) (options c).
Definition find_inline_short (c : cfg) (ch : N) : option nat :=
  find_idx (fun o => match o_short o with
                     | Some n => (List.length n =? 1) && N.eqb (chr n 0) ch
                     | None => false
                     end) (options c).
Definition kind_at (c : cfg) (i : nat) : outcome kind :=
  match nth_error (options c) i with Some o => Ok (o_kind o) | None => Fault OutOfBounds end.

(** am-argparser.h:652-680: which option an argument starting with '-' (or '/') names, the implied value ("true"/"false" of an
    EnableOption), and the separator (offset of the character before the value). *)
Definition resolve (c : cfg) (arg : str) : outcome (option (nat * option str * option nat)) :=
  let len := List.length arg in
  let sep := strchr arg c_eq in
  let sep := match sep with None => if inline_values c then strchr arg c_colon else None | s => s end in
  do sep <- match sep with
            | Some k => if inline_values c
                        then do p <- ptr_add arg (k + 1); Ok (if List.length p =? 0 then None else Some k)
                        else Ok (Some k)
            | None => Ok None
            end;
  let len := match sep with Some k => k | None => len end in
  do (option, sep) <-
    (if N.eqb (chr arg 0) c_dash && N.eqb (chr arg 1) c_dash
     then do p <- ptr_add arg 2; do n <- size_sub len 2; Ok (find_long c p n, sep)
     else do p <- ptr_add arg 1; do n <- size_sub len 1;
          match find_short c p n with
          | Some o => Ok (Some o, sep)
          | None => if inline_values c
                    then match find_inline_short c (chr arg 1) with
                         | Some o => Ok (Some o, if 2 <? len then Some 1 else sep)
                         | None => Ok (None, sep)
                         end
                    else Ok (None, sep)
          end);
  match option with
  | None =>
      if strncmp_eq 5 arg (lit "--no-")
      then do p <- ptr_add arg 5; do n <- size_sub len 5;
           match find_long c p n with
           | None => Fault NullDeref                                  (* 674: option->canPrefixWithNo() *)
           | Some o => do k <- kind_at c o;
                       if prefix_no k then Ok (Some (o, Some (lit "false"), sep)) else Ok None
           end
      else Ok None
  | Some o => do k <- kind_at c o;
              Ok (Some (o, if prefix_no k then Some (lit "true") else None, sep))
  end.

(** What the body of the loop has decided before consuming a value (am-argparser.h:628-705). *)
Inductive head :=
| HErr (e : perr)                                      (* return false *)
| HSkip (st : pstate)                                  (* continue *)
| HOpt (i : nat) (value_ptr : option str)
| HPos (i : nat) (value_ptr : str).

Definition is_option (c : cfg) (arg : str) : bool :=
  N.eqb (chr arg 0) c_dash || (allow_slashes c && N.eqb (chr arg 0) c_slash).

Definition read_head (c : cfg) (st : pstate) (positional : nat) (arg : str) : outcome head :=
  if allow_pass c && streq arg (lit "--")
  then Ok (HSkip (PState (vals st) (pvals st) (extra st) (passthru st) true (error st)))
  else if has_pass st
  then Ok (HSkip (PState (vals st) (pvals st) (extra st) (passthru st ++ [arg]) (has_pass st) (error st)))
  else if is_option c arg then
    do r <- resolve c arg;
    match r with
    | None => Ok (HErr (Unrecognized arg))
    | Some (i, value_ptr, sep) =>
        do k <- kind_at c i;
        do vs <- slot_get (vals st) i;
        if negb (will_repeat k vs) then Ok (HErr (AlreadySpecified i))
        else match sep with
             | Some p => do v <- ptr_add arg (p + 1);
                         if must_omit k then Ok (HErr (InvalidValue false i v)) else Ok (HOpt i (Some v))
             | None => Ok (HOpt i value_ptr)
             end
    end
  else if List.length (positionals c) <=? positional then
    if collect_extra c
    then Ok (HSkip (PState (vals st) (pvals st) (extra st ++ [arg]) (passthru st) (has_pass st) (error st)))
    else Ok (HErr UnrecognizedExtra)
  else Ok (HPos positional arg).

Inductive lres := LErr (st : pstate) | LDone (positional : nat) (halted : bool) (st : pstate).

(** am-argparser.h:627-729: the loop.  The recursive calls are on the arguments still to be read; putting back the argument that
    was tried as a value (i--) is continuing with the longer tail. *)
Fixpoint loop (c : cfg) (args : list str) (positional : nat) (st : pstate) : outcome lres :=
  match args with
  | [] => Ok (LDone positional false st)
  | arg :: rest =>
    do h <- read_head c st positional arg;
    match h with
    | HErr e => Ok (LErr (set_error st e))
    | HSkip st => loop c rest positional st
    | HPos i v =>                                          (* canOmitValue() is false, name_ being set *)
        match nth_error (positionals c) i with
        | None => Fault OutOfBounds
        | Some p =>
            do r <- policy_consume p (Some v);
            match r with
            | None => Ok (LErr (set_error st (InvalidValue true i v)))
            | Some x => loop c rest (S positional) (store_pos st i x)
            end
        end
    | HOpt i value_ptr =>
        match nth_error (options c) i with
        | None => Fault OutOfBounds
        | Some o =>
            let k := o_kind o in
            match value_ptr, rest with
            | Some v, _ =>
                do r <- consume o (Some v);
                match r with
                | Some x => if halts k then Ok (LDone positional true (store c st i x))
                            else loop c rest positional (store c st i x)
                | None => if can_omit k
                          then if halts k then Ok (LDone positional true st) else loop c rest positional st
                          else Ok (LErr (set_error st (InvalidValue false i v)))
                end
            | None, [] =>
                if can_omit k then
                  do r <- consume o None;
                  match r with
                  | Some x => Ok (LDone positional (halts k) (store c st i x))
                  | None => Ok (LDone positional (halts k) st)
                  end
                else Ok (LErr (set_error st (NeedsValue i)))
            | None, next :: rest' =>
                if must_omit k then
                  do r <- consume o None;
                  match r with
                  | Some x => if halts k then Ok (LDone positional true (store c st i x))
                              else loop c rest positional (store c st i x)
                  | None => if can_omit k
                            then if halts k then Ok (LDone positional true st) else loop c rest positional st
                            else Fault NullDeref          (* option_invalid_value(option, nullptr): "%s" of null *)
                  end
                else
                  do r <- consume o (Some next);
                  match r with
                  | Some x => if halts k then Ok (LDone positional true (store c st i x))
                              else loop c rest' positional (store c st i x)
                  | None => if can_omit k
                            then if halts k then Ok (LDone positional true st) else loop c rest positional st
                            else Ok (LErr (set_error st (InvalidValue false i next)))
                  end
            end
        end
    end
  end.

(** am-argparser.h:731-738; help_option_->value(). *)
Definition opt_value (o : optd) (vs : list value) : option value :=
  match vs with v :: _ => Some v | [] => o_default o end.
Definition help_wanted (c : cfg) (st : pstate) : bool :=
  match help c with
  | None => false
  | Some i => match nth_error (options c) i, nth_error (vals st) i with
              | Some o, Some vs => match opt_value o vs with Some (VBool b) => b | _ => false end
              | _, _ => false
              end
  end.
(** am-argparser.h:621-739 parse_impl, as called by all the parse overloads (which only collect the argument pointers). *)
Definition parse (c : cfg) (st : pstate) (args : list str) : outcome (bool * pstate) :=
  do r <- loop c args 0 st;
  match r with
  | LErr st => Ok (false, st)
  | LDone positional halted st =>
      if negb halted && (positional <? List.length (positionals c))
      then Ok (false, set_error st (MissingPositional positional))
      else Ok (negb (help_wanted c st), st)
  end.

(** am-argparser.h:1033-1042 Parser::reset: values only. *)
Definition reset (c : cfg) (st : pstate) : pstate :=
  PState (List.map (fun _ => []) (vals st)) (List.map (fun _ => None) (pvals st))
    (extra st) (passthru st) (has_pass st) (error st).
End Parse.
