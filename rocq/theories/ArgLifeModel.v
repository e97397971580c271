(** Model of the lifetimes of the objects of amtl/experimental/am-argparser.h: options and parsers of ArgEntryModel that
    are destroyed while others are still in use.  Parser keeps plain pointers to its options (options_, positionals_,
    sStaticOptions) and no destructor removes one; touching an option that has been destroyed is a fault.

    The functions of ArgModel that touch options are transcribed a second time, with every access through an option
    pointer checked; [dead_o] and [dead_p] say which entries of options_ and positionals_ point to destroyed objects.
    Storage is not reused for another option.  Of usage() only the accesses to options are modelled, without set_usage_line(). *)
From Coq Require Import Ascii String.
From Verif Require Import Base ArgModel ArgEntryModel.
Local Open Scope nat_scope.
Local Open Scope list_scope.

Section Checked.
Variable long_bits : Z.
Variable dead_o dead_p : nat -> bool.
(** An access through the pointer options_[i] or positionals_[i] (am-argparser.h:132-133). *)
Definition touch (dead : nat -> bool) (i : nat) : outcome unit := if dead i then Fault UseAfterFree else Ok tt.

(** The loops of find_short, find_inline_short, find_long (am-argparser.h:741-779): the options are touched one after
    the other up to the first match; [i] is the index of the first of [os] in options_. *)
Fixpoint lfind (f : optd -> bool) (os : list optd) (i : nat) : outcome (option nat) :=
  match os with
  | [] => Ok None
  | o :: t => do _ <- touch dead_o i; if f o then Ok (Some i) else lfind f t (S i)
  end.
Definition lfind_short (c : cfg) (s : str) (len : nat) : outcome (option nat) :=
  lfind (fun o => name_matches (o_short o) s len) (options c) 0.
Definition lfind_long (c : cfg) (s : str) (len : nat) : outcome (option nat) :=
  lfind (fun o => name_matches (o_long o) s len) (options c) 0.
Definition lfind_inline_short (c : cfg) (ch : N) : outcome (option nat) :=
  lfind (fun o => match o_short o with
                  | Some n => (List.length n =? 1) && N.eqb (chr n 0) ch
                  | None => false
                  end) (options c) 0.

(** am-argparser.h:652-680, as ArgModel.resolve. *)
Definition lresolve (c : cfg) (arg : str) : outcome (option (nat * option str * option nat)) :=
  let len := List.length arg in
  let sep := strchr arg c_eq in
  let sep := match sep with None => if inline_values c then strchr arg c_colon else None | s => s end in
  do sep <- match sep with
            | Some k => if inline_values c
                        then do p <- ptr_add arg (k + 1); Ok (if List.length p =? 0 then None else Some k)
                        else Ok (Some k)
            | None => Ok None
            end;
  let len := match sep with Some k => k | None => len end in
  do (option, sep) <-
    (if N.eqb (chr arg 0) c_dash && N.eqb (chr arg 1) c_dash
     then do p <- ptr_add arg 2; do n <- size_sub len 2; do r <- lfind_long c p n; Ok (r, sep)
     else do p <- ptr_add arg 1; do n <- size_sub len 1;
          do r <- lfind_short c p n;
          match r with
          | Some o => Ok (Some o, sep)
          | None => if inline_values c
                    then do r <- lfind_inline_short c (chr arg 1);
                         match r with
                         | Some o => Ok (Some o, if 2 <? len then Some 1 else sep)
                         | None => Ok (None, sep)
                         end
                    else Ok (None, sep)
          end);
  match option with
  | None =>
      if strncmp_eq 5 arg (lit "--no-")
      then do p <- ptr_add arg 5; do n <- size_sub len 5;
           do r <- lfind_long c p n;
           match r with
           | None => Fault NullDeref
           | Some o => do k <- kind_at c o;
                       if prefix_no k then Ok (Some (o, Some (lit "false"), sep)) else Ok None
           end
      else Ok None
  | Some o => do k <- kind_at c o;
              Ok (Some (o, if prefix_no k then Some (lit "true") else None, sep))
  end.

(** am-argparser.h:628-705, as ArgModel.read_head; a positional is touched when it is given its value (715). *)
Definition lread_head (c : cfg) (st : pstate) (positional : nat) (arg : str) : outcome head :=
  if allow_pass c && streq arg (lit "--")
  then Ok (HSkip (PState (vals st) (pvals st) (extra st) (passthru st) true (error st)))
  else if has_pass st
  then Ok (HSkip (PState (vals st) (pvals st) (extra st) (passthru st ++ [arg]) (has_pass st) (error st)))
  else if is_option c arg then
    do r <- lresolve c arg;
    match r with
    | None => Ok (HErr (Unrecognized arg))
    | Some (i, value_ptr, sep) =>
        do k <- kind_at c i;
        do vs <- slot_get (vals st) i;
        if negb (will_repeat k vs) then Ok (HErr (AlreadySpecified i))
        else match sep with
             | Some p => do v <- ptr_add arg (p + 1);
                         if must_omit k then Ok (HErr (InvalidValue false i v)) else Ok (HOpt i (Some v))
             | None => Ok (HOpt i value_ptr)
             end
    end
  else if List.length (positionals c) <=? positional then
    if collect_extra c
    then Ok (HSkip (PState (vals st) (pvals st) (extra st ++ [arg]) (passthru st) (has_pass st) (error st)))
    else Ok (HErr UnrecognizedExtra)
  else do _ <- touch dead_p positional; Ok (HPos positional arg).

(** am-argparser.h:627-729, as ArgModel.loop: the option in hand was touched when it was found. *)
Fixpoint lloop (c : cfg) (args : list str) (positional : nat) (st : pstate) : outcome lres :=
  match args with
  | [] => Ok (LDone positional false st)
  | arg :: rest =>
    do h <- lread_head c st positional arg;
    match h with
    | HErr e => Ok (LErr (set_error st e))
    | HSkip st => lloop c rest positional st
    | HPos i v =>
        match nth_error (positionals c) i with
        | None => Fault OutOfBounds
        | Some p =>
            do r <- policy_consume long_bits p (Some v);
            match r with
            | None => Ok (LErr (set_error st (InvalidValue true i v)))
            | Some x => lloop c rest (S positional) (store_pos st i x)
            end
        end
    | HOpt i value_ptr =>
        match nth_error (options c) i with
        | None => Fault OutOfBounds
        | Some o =>
            let k := o_kind o in
            match value_ptr, rest with
            | Some v, _ =>
                do r <- consume long_bits o (Some v);
                match r with
                | Some x => if halts k then Ok (LDone positional true (store c st i x))
                            else lloop c rest positional (store c st i x)
                | None => if can_omit k
                          then if halts k then Ok (LDone positional true st) else lloop c rest positional st
                          else Ok (LErr (set_error st (InvalidValue false i v)))
                end
            | None, [] =>
                if can_omit k then
                  do r <- consume long_bits o None;
                  match r with
                  | Some x => Ok (LDone positional (halts k) (store c st i x))
                  | None => Ok (LDone positional (halts k) st)
                  end
                else Ok (LErr (set_error st (NeedsValue i)))
            | None, next :: rest' =>
                if must_omit k then
                  do r <- consume long_bits o None;
                  match r with
                  | Some x => if halts k then Ok (LDone positional true (store c st i x))
                              else lloop c rest positional (store c st i x)
                  | None => if can_omit k
                            then if halts k then Ok (LDone positional true st) else lloop c rest positional st
                            else Fault NullDeref
                  end
                else
                  do r <- consume long_bits o (Some next);
                  match r with
                  | Some x => if halts k then Ok (LDone positional true (store c st i x))
                              else lloop c rest' positional (store c st i x)
                  | None => if can_omit k
                            then if halts k then Ok (LDone positional true st) else lloop c rest positional st
                            else Ok (LErr (set_error st (InvalidValue false i next)))
                  end
            end
        end
    end
  end.

(** am-argparser.h:621-739, as ArgModel.parse; missing_positional() touches the positional (731-732, 810-813),
    help_option_ belongs to the parser (735). *)
Definition lparse (c : cfg) (st : pstate) (args : list str) : outcome (bool * pstate) :=
  do r <- lloop c args 0 st;
  match r with
  | LErr st => Ok (false, st)
  | LDone positional halted st =>
      if negb halted && (positional <? List.length (positionals c))
      then do _ <- touch dead_p positional; Ok (false, set_error st (MissingPositional positional))
      else Ok (negb (help_wanted c st), st)
  end.
End Checked.

(** The objects of ArgEntryModel, and which of them have been destroyed (am-argparser.h:131-146, 171, 272). *)
Record lworld := LW { lw : world; dead_opts : list nat; dead_poss : list nat; dead_parsers : list nat }.
(** Before anything is constructed (am-argparser.h:109-113). *)
Definition lstart : lworld := LW start [] [] [].
(** Whether object number i has been destroyed (am-argparser.h:171, 272: the destructors). *)
Definition isdead (l : list nat) (i : nat) : bool := existsb (Nat.eqb i) l.

(** Client programs over am-argparser.h; not code of /repo.  Options are numbered in the order of their construction, the
    ones with names (help options of parsers included) and the positional ones separately; parsers likewise. *)
Inductive levent :=
| LEv (e : event)
| LKillOpt (i : nat) | LKillPos (i : nat) | LKillParser (k : nat)    (* the object is destroyed, am-argparser.h:171, 272 *)
| LValue (i : nat) | LPosValue (i : nat)                             (* value()/values() of an option is read *)
| LUsage (k : nat) (args : list str).                                (* usage(), args being argv without its first element *)
Inductive lout := ONothing | OParsed (b : bool) | OValues (vs : list value) | OPosValue (v : option value).

(** Touching every option in a list of pointers, in order: the loops of am-argparser.h:553-556, 565-568 (add() reads the option's names) and 1036-1039. *)
Fixpoint touch_all (dead : list nat) (ids : list nat) : outcome unit :=
  match ids with
  | [] => Ok tt
  | i :: ids => do _ <- touch (isdead dead) i; touch_all dead ids
  end.
(** Using a parser object that has been destroyed (am-argparser.h:45-146). *)
Definition use_parser (W : lworld) (k : nat) : outcome unit :=
  if isdead (dead_parsers W) k then Fault UseAfterFree else Ok tt.
(** The pointers a parser holds, by index in options_ (am-argparser.h:132-133). *)
Definition dead_at (dead : list nat) (ids : list nat) (j : nat) : bool :=
  match nth_error ids j with Some i => isdead dead i | None => false end.

(** Whether usage() stops after the error text (am-argparser.h:828-842). *)
Definition error_only (p : parser) (args : list str) : bool :=
  match p_error p with
  | Some _ => negb (p_help p) || negb (existsb (fun a => streq a (lit "-h") || streq a (lit "--help")) args)
  | None => false
  end.

Section LWorld.
Variable long_bits : Z.
(** The same objects destroyed, the others in state w (am-argparser.h:131-146). *)
Definition with_world (W : lworld) (w : world) : lworld := LW w (dead_opts W) (dead_poss W) (dead_parsers W).
(** One action of the program (am-argparser.h:45-146 and the members cited at each case). *)
Definition lstep (W : lworld) (e : levent) : outcome (lworld * lout) :=
  match e with
  | LEv e =>
      match e with
      | EStaticOpt _ | EStaticPos _ => do (w, _) <- step long_bits (lw W) e; Ok (with_world W w, ONothing)
      | EParser _ =>                                                     (* am-argparser.h:551-579 *)
          do _ <- touch_all (dead_opts W) (w_sopts (lw W)); do _ <- touch_all (dead_poss W) (w_sposs (lw W));
          do (w, _) <- step long_bits (lw W) e; Ok (with_world W w, ONothing)
      | EOpt k _ | EPos k _ | EMode k _ =>
          do _ <- use_parser W k; do (w, _) <- step long_bits (lw W) e; Ok (with_world W w, ONothing)
      | EParse k args =>
          do _ <- use_parser W k;
          do p <- slot_get (w_parsers (lw W)) k;
          do (b, st) <- lparse long_bits (dead_at (dead_opts W) (p_opts p)) (dead_at (dead_poss W) (p_poss p))
                          (cfg_of (lw W) p) (view (lw W) p) args;
          Ok (with_world W (leave (lw W) k p st), OParsed b)
      | EReset k =>                                                      (* am-argparser.h:1033-1042 *)
          do _ <- use_parser W k;
          do p <- slot_get (w_parsers (lw W)) k;
          do _ <- touch_all (dead_opts W) (p_opts p); do _ <- touch_all (dead_poss W) (p_poss p);
          do (w, _) <- step long_bits (lw W) e; Ok (with_world W w, ONothing)
      end
  | LKillOpt i =>                                                        (* am-argparser.h:171-172, 272-273 *)
      do _ <- slot_get (w_opts (lw W)) i; do _ <- touch (isdead (dead_opts W)) i;
      Ok (LW (lw W) (i :: dead_opts W) (dead_poss W) (dead_parsers W), ONothing)
  | LKillPos i =>
      do _ <- slot_get (w_poss (lw W)) i; do _ <- touch (isdead (dead_poss W)) i;
      Ok (LW (lw W) (dead_opts W) (i :: dead_poss W) (dead_parsers W), ONothing)
  | LKillParser k =>                                     (* the implicit ~Parser: destroys help_option_ (am-argparser.h:142) *)
      do p <- slot_get (w_parsers (lw W)) k; do _ <- use_parser W k;
      Ok (LW (lw W) (if p_help p then nth 0 (p_opts p) 0 :: dead_opts W else dead_opts W) (dead_poss W)
             (k :: dead_parsers W), ONothing)
  | LValue i => do x <- slot_get (w_opts (lw W)) i; do _ <- touch (isdead (dead_opts W)) i; Ok (W, OValues (snd x))
  | LPosValue i => do x <- slot_get (w_poss (lw W)) i; do _ <- touch (isdead (dead_poss W)) i; Ok (W, OPosValue (snd x))
  | LUsage k args =>                                     (* usage_line 1015-1018, then 877-883, 890-924 and 955 *)
      do _ <- use_parser W k;
      do p <- slot_get (w_parsers (lw W)) k;
      do _ <- touch_all (dead_poss W) (p_poss p);
      if error_only p args then Ok (W, ONothing)
      else do _ <- touch_all (dead_poss W) (p_poss p); do _ <- touch_all (dead_opts W) (p_opts p); Ok (W, ONothing)
  end.
(** A run of a client program over am-argparser.h:83-400 (a test like tests/test-argparser.cpp:40-90); not code of /repo. *)
Fixpoint lrun (W : lworld) (es : list levent) : outcome (lworld * list lout) :=
  match es with
  | [] => Ok (W, [])
  | e :: es => do (W, r) <- lstep W e; do (W, rs) <- lrun W es; Ok (W, r :: rs)
  end.
End LWorld.
