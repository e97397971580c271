(** What a Maybe is supposed to be: an optional value per variable, with the ordinary meaning of construction,
    copy, move and assignment. *)
From Verif Require Import Base MaybeModel.

Section Spec.
Variable V : Type.

Definition vals := var -> option (option V).      (* None: no such variable; Some None: an empty Maybe *)
Definition no_vars : vals := fun _ => None.
Definition put (m : vals) (v : var) (x : option (option V)) : vals := fun u => if u =? v then x else m u.

(** The meaning of one operation; None if the program is not allowed to do it (no such variable, reading an
    empty Maybe). *)
Definition meaning (m : vals) (o : op V) : option (vals * output V) :=
  match o with
  | New v => match m v with None => Some (put m v (Some None), ONone) | _ => None end
  | CopyCtor v w => match m v, m w with
      | None, Some x => Some (put m v (Some x), ONone) | _, _ => None end
  | MoveCtor v w => match m v, m w with
      | None, Some x => Some (put (put m w (Some None)) v (Some x), ONone) | _, _ => None end
  | SomeCtor v x => match m v with None => Some (put m v (Some (Some x)), ONone) | _ => None end
  | Init v x => match m v with Some _ => Some (put m v (Some (Some x)), ONone) | None => None end
  | InitFrom v w => match m v, m w with
      | Some _, Some (Some x) => Some (put m v (Some (Some x)), ONone) | _, _ => None end
  | Assign v w => match m v, m w with
      | Some _, Some x => Some (put m v (Some x), ONone) | _, _ => None end
  | AssignMove v w => match m v, m w with
      | Some _, Some x => Some (put (put m w (Some None)) v (Some x), ONone) | _, _ => None end
  | Get v => match m v with Some (Some x) => Some (m, OVal x) | _ => None end
  | IsValid v => match m v with
      | Some x => Some (m, OBool (match x with Some _ => true | None => false end)) | None => None end
  | Destroy v => match m v with Some _ => Some (put m v None, ONone) | None => None end
  end.

Fixpoint meanings (m : vals) (p : list (op V)) : option (vals * list (output V)) :=
  match p with
  | [] => Some (m, [])
  | o :: p' =>
    match meaning m o with
    | None => None
    | Some (m, r) => match meanings m p' with Some (m, rs) => Some (m, r :: rs) | None => None end
    end
  end.

(** The operations relating a variable to itself. *)
Definition no_self (o : op V) : Prop :=
  match o with
  | Assign v w | AssignMove v w | InitFrom v w => v <> w
  | _ => True
  end.

(** How many T objects an operation abandons, given the values before it: assigning over a value, and moving
    from a value. *)
Definition full (m : vals) (v : var) : nat := match m v with Some (Some _) => 1 | _ => 0 end.
Definition abandons (m : vals) (o : op V) : nat :=
  match o with
  | MoveCtor _ w => full m w
  | Assign v _ => full m v
  | AssignMove v w => full m v + full m w
  | _ => 0
  end.
Fixpoint abandoned (m : vals) (p : list (op V)) : nat :=
  match p with
  | [] => 0
  | o :: p' => abandons m o + match meaning m o with Some (m, _) => abandoned m p' | None => 0 end
  end.

(** What self-assignment does instead: it empties the variable, abandoning its T; v.init( *v) is not allowed. *)
Definition actual (m : vals) (o : op V) : option (vals * output V) :=
  match o with
  | Assign v w | AssignMove v w =>
      if v =? w then match m v with Some _ => Some (put m v (Some None), ONone) | None => None end else meaning m o
  | InitFrom v w => if v =? w then None else meaning m o
  | _ => meaning m o
  end.
Fixpoint actuals (m : vals) (p : list (op V)) : option (vals * list (output V)) :=
  match p with
  | [] => Some (m, [])
  | o :: p' =>
    match actual m o with
    | None => None
    | Some (m, r) => match actuals m p' with Some (m, rs) => Some (m, r :: rs) | None => None end
    end
  end.
Definition leaves (m : vals) (o : op V) : nat :=
  match o with AssignMove v w => if v =? w then full m v else abandons m o | _ => abandons m o end.
Fixpoint left_behind (m : vals) (p : list (op V)) : nat :=
  match p with
  | [] => 0
  | o :: p' => leaves m o + match actual m o with Some (m, _) => left_behind m p' | None => 0 end
  end.
End Spec.
Arguments actual {V}. Arguments actuals {V}. Arguments leaves {V}. Arguments left_behind {V}.
Arguments put {V}. Arguments meaning {V}. Arguments meanings {V}. Arguments no_self {V}.
Arguments full {V}. Arguments abandons {V}. Arguments abandoned {V}. Arguments no_vars {V}.
