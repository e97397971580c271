(** Flag values as sets of bit positions. *)
From Verif Require Import Base FlagsModel.
Local Open Scope Z_scope.

(** Flag i is in the set a. *)
Definition member (a : Z) (i : Z) : bool := Z.testbit a i.

(** What each operator means for membership of each position. *)
Definition set_op (o : fop) (x y : bool) : bool :=
  match o with
  | Plus | Or => x || y
  | Minus => x && negb y
  | And => x && y
  | Xor => xorb x y
  end.
Definition set_program (x : bool) (l : list (fop * bool)) : bool :=
  fold_left (fun x ob => set_op (fst ob) x (snd ob)) l x.
