(** What a FixedArray is supposed to be: a fixed-length list per variable. *)
From Verif Require Import Base FixedArrayModel.

Section Spec.
Variable V : Type.
Variable dflt : V.
Variable veq : V -> V -> bool.

(** The list a variable holds, and whether it has storage of its own (a default-constructed or moved-from array
    has none). *)
Definition vals := var -> option (list V * bool).
Definition no_vars : vals := fun _ => None.
Definition put (m : vals) (v : var) (x : option (list V * bool)) : vals := fun u => if u =? v then x else m u.

Fixpoint all_eq (l r : list V) : bool :=
  match l, r with
  | [], [] => true
  | x :: l', y :: r' => veq x y && all_eq l' r'
  | _, _ => false
  end.

Definition meaning (m : vals) (o : op V) : option (vals * output V) :=
  match o with
  | NewDefault v => match m v with None => Some (put m v (Some ([], false)), ONone) | _ => None end
  | NewSize v n => match m v with None => Some (put m v (Some (repeat dflt n, true)), ONone) | _ => None end
  | CopyCtor v u => match m v, m u with
      | None, Some (l, _) => Some (put m v (Some (l, true)), ONone) | _, _ => None end
  | MoveCtor v u => match m v, m u with
      | None, Some x => Some (put (put m v (Some x)) u (Some ([], false)), ONone) | _, _ => None end
  | FromVector v l => match m v with None => Some (put m v (Some (l, true)), ONone) | _ => None end
  | AssignCopy v u => match m v, m u with
      | Some (k, b), Some (l, _) =>
          Some (put m v (Some (l, if length k =? length l then b else true)), ONone)
      | _, _ => None end
  | AssignMove v u => match m v, m u with
      | Some _, Some x => Some (put (put m v (Some x)) u (Some ([], false)), ONone) | _, _ => None end
  | GetAt v i => match m v with
      | Some (l, _) => match nth_error l i with Some x => Some (m, OVal x) | None => None end | None => None end
  | SetAt v i x => match m v with
      | Some (l, b) => if i <? length l then Some (put m v (Some (upd l i x, b)), ONone) else None
      | None => None end
  | Back v => match m v with
      | Some (x :: l, _) => Some (m, OVal (last l x)) | _ => None end
  | Size v => match m v with Some (l, _) => Some (m, ONat (length l)) | None => None end
  | IsEq v u => match m v, m u with
      | Some (l, _), Some (r, _) => Some (m, OBool (all_eq l r)) | _, _ => None end
  | Destroy v => match m v with Some _ => Some (put m v None, ONone) | None => None end
  end.

Fixpoint meanings (m : vals) (p : list (op V)) : option (vals * list (output V)) :=
  match p with
  | [] => Some (m, [])
  | o :: p' =>
    match meaning m o with
    | None => None
    | Some (m, r) => match meanings m p' with Some (m, rs) => Some (m, r :: rs) | None => None end
    end
  end.

Definition no_self (o : op V) : Prop :=
  match o with AssignCopy v u | AssignMove v u => v <> u | _ => True end.

(** Element counts the program asks for fit size_t once multiplied by sizeof(T) = sz. *)
Definition fits (w sz : N) (o : op V) : Prop :=
  match o with
  | NewSize _ n => (sz * N.of_nat n < 2 ^ w)%N
  | FromVector _ l => (sz * N.of_nat (length l) < 2 ^ w)%N
  | _ => True
  end.

(** Blocks an operation abandons: move-assigning to an array that has storage. *)
Definition abandons (m : vals) (o : op V) : nat :=
  match o with
  | AssignMove v _ => match m v with Some (_, true) => 1 | _ => 0 end
  | _ => 0
  end.
Fixpoint abandoned (m : vals) (p : list (op V)) : nat :=
  match p with
  | [] => 0
  | o :: p' => abandons m o + match meaning m o with Some (m, _) => abandoned m p' | None => 0 end
  end.
End Spec.
Arguments no_vars {V}. Arguments put {V}. Arguments all_eq {V}. Arguments meaning {V}. Arguments meanings {V}.
Arguments no_self {V}. Arguments fits {V}. Arguments abandons {V}. Arguments abandoned {V}.
