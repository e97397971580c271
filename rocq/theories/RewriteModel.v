(** Model of TextRewriter, tools/restyler/amstyler.cpp:48-178.  The clang SourceManager is not modelled: the offsets
    computed by offset() (lines 151-156, a pointer difference into the file's buffer) are the arguments here.
    The text is a list of characters; size_t has width [w]. *)
From Verif Require Import Base.
Local Open Scope N_scope.

Section Rewrite.
Variable char : Type.
Notation string := (list char).

(** amstyler.cpp:159-171: OpKind and Operation. *)
Inductive kind := Replace | Remove | InsertAt | InsertAfter.
Record operation := Op { op_kind : kind; op_offset : N; op_length : N; op_text : string }.

Variable w : N.       (* width of size_t *)
Variable debug : bool.

(** amstyler.cpp:59-68: replace(); end_pos - start_pos is computed in size_t. *)
Definition replace (ops : list operation) (start_pos end_pos : N) (text : string) : list operation :=
  ops ++ [Op Replace start_pos (usub w end_pos start_pos) text].
(** amstyler.cpp:70-78: remove(). *)
Definition remove (ops : list operation) (start_pos end_pos : N) : list operation :=
  ops ++ [Op Remove start_pos (usub w end_pos start_pos) []].
(** amstyler.cpp:80-87: insertAt(). *)
Definition insert_at (ops : list operation) (at_pos : N) (text : string) : list operation :=
  ops ++ [Op InsertAt at_pos 0 text].
(** amstyler.cpp:89-96: insertAfter(). *)
Definition insert_after (ops : list operation) (at_pos : N) (text : string) : list operation :=
  ops ++ [Op InsertAfter at_pos 0 text].

Definition npos : N := 2 ^ w - 1.

(** amstyler.cpp:105-141: the loop at index [i], with [text] the characters from [i] on, [ops] the queue, [ignore] the variable
    ignore_until.  Returns the output produced and the remaining queue.  The diagnostic print to std::cout (113-114)
    is not modelled. *)
Fixpoint emit_loop (text : string) (i : N) (ops : list operation) (ignore : N) : outcome (string * list operation) :=
  match text with
  | [] => Ok ([], ops)
  | ch :: text' =>
      if negb (ignore =? npos) && (i <? ignore) then emit_loop text' (i + 1) ops ignore          (* amstyler.cpp:107-109 *)
      else                                                                                        (* 110: reset *)
        do _ <- assert_ debug (match ops with [] => true | op :: _ => i <=? op_offset op end);    (* 115 *)
        match ops with
        | [] => do (out, q) <- emit_loop text' (i + 1) ops npos; Ok (ch :: out, q)                (* amstyler.cpp:116-119 *)
        | op :: ops' =>
            if negb (op_offset op =? i) then
              do (out, q) <- emit_loop text' (i + 1) ops npos; Ok (ch :: out, q)                  (* amstyler.cpp:116-119 *)
            else
              match op_kind op with                                                               (* amstyler.cpp:121-140 *)
              | Replace => do (out, q) <- emit_loop text' (i + 1) ops' (uadd w i (op_length op)); Ok (op_text op ++ out, q)
              | Remove => emit_loop text' (i + 1) ops' (uadd w i (op_length op))
              | InsertAt => do (out, q) <- emit_loop text' (i + 1) ops' npos; Ok (op_text op ++ ch :: out, q)
              | InsertAfter => do (out, q) <- emit_loop text' (i + 1) ops' npos; Ok (ch :: op_text op ++ out, q)
              end
        end
  end.

(** amstyler.cpp:98-145: emit(), where [sorted] is ops_ after std::sort (101-103).  Returns the text and ops_ afterwards. *)
Definition emit (text : string) (sorted : list operation) : outcome (string * list operation) :=
  do (out, q) <- emit_loop text 0 sorted npos;
  do _ <- assert_ debug (match q with [] => true | _ => false end);      (* 143 *)
  Ok (out, q).
End Rewrite.
Arguments Op {char}. Arguments op_kind {char}. Arguments op_offset {char}. Arguments op_length {char}. Arguments op_text {char}.
Arguments replace {char}. Arguments remove {char}. Arguments insert_at {char}. Arguments insert_after {char}.
Arguments emit_loop {char}. Arguments emit {char}.
