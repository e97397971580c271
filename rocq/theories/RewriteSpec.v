(** What applying a set of edits to a text means, position by position and without reference to any order. *)
From Verif Require Import Base RewriteModel.
Local Open Scope nat_scope.

Section Spec.
Variable char : Type.
Notation string := (list char).

(** The contract of std::sort with the comparison of amstyler.cpp:101-103 (not stable). *)
Definition sorted_by_offset (ops sorted : list (operation char)) : Prop :=
  Permutation ops sorted /\
  forall i j a b, i < j -> nth_error sorted i = Some a -> nth_error sorted j = Some b -> (op_offset a <= op_offset b)%N.

Definition offset (op : operation char) : nat := N.to_nat (op_offset op).
(** The characters an edit takes away: the positions from [offset] on, [length] of them, for Replace and Remove. *)
Definition takes_away (op : operation char) (i : nat) : bool :=
  match op_kind op with
  | Replace | Remove => (offset op <=? i) && (i <? offset op + N.to_nat (op_length op))
  | _ => false
  end.
(** The text an edit puts in front of position [i], and behind the character at position [i]. *)
Definition before (op : operation char) (i : nat) : string :=
  if offset op =? i then match op_kind op with Replace | InsertAt => op_text op | _ => [] end else [].
Definition behind (op : operation char) (i : nat) : string :=
  if offset op =? i then match op_kind op with InsertAfter => op_text op | _ => [] end else [].
(** The text with the edits: at each position what is put before it, the character unless some edit takes it away,
    what is put behind it. *)
Definition piece (ops : list (operation char)) (i : nat) (ch : char) : string :=
  flat_map (fun op => before op i) ops
  ++ (if existsb (fun op => takes_away op i) ops then [] else [ch])
  ++ flat_map (fun op => behind op i) ops.
Fixpoint edited (ops : list (operation char)) (i : nat) (text : string) : string :=
  match text with [] => [] | ch :: rest => piece ops i ch ++ edited ops (S i) rest end.

(** The end of an edit: one past the last character it takes away, or one past its position for an insertion. *)
Definition is_span (op : operation char) : Prop := op_kind op = Replace \/ op_kind op = Remove.
Definition inside (text : string) (op : operation char) : Prop :=
  offset op < length text /\ (is_span op -> offset op + N.to_nat (op_length op) <= length text).
Definition nonempty_span (op : operation char) : Prop := is_span op -> (0 < op_length op)%N.
(** Two edits at different offsets that do not overlap: no edit's offset lies in what another one takes away. *)
Definition apart (a b : operation char) : Prop :=
  offset a <> offset b /\ takes_away a (offset b) = false /\ takes_away b (offset a) = false.
Definition all_apart (ops : list (operation char)) : Prop := ForallOrdPairs apart ops.
End Spec.
Arguments sorted_by_offset {char}. Arguments offset {char}. Arguments takes_away {char}. Arguments before {char}.
Arguments behind {char}. Arguments piece {char}. Arguments edited {char}. Arguments inside {char}.
Arguments nonempty_span {char}. Arguments apart {char}. Arguments all_apart {char}. Arguments is_span {char}.
