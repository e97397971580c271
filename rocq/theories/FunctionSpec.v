(** What a Function is supposed to be: an optional callable per variable ([ideal]); and what this implementation
    makes of it ([exact]): the callable together with the number of Function layers wrapped around it. *)
From Verif Require Import Base FunctionModel.

Section Spec.
Variables C A R : Type.
Variable call : C -> A -> R.
Variable fits_inline : C -> bool.     (* does FunctionHolder<C> fit the buffer? *)

(** * The ideal *)
Definition ivals := var -> option (option C).
Definition no_ivars : ivals := fun _ => None.
Definition iput (m : ivals) (v : var) (x : option (option C)) : ivals := fun u => if u =? v then x else m u.

Definition ideal (m : ivals) (o : op C A) : option (ivals * output R) :=
  match o with
  | New v => match m v with None => Some (iput m v (Some None), ONone) | _ => None end
  | FromCallable v c => match m v with None => Some (iput m v (Some (Some c)), ONone) | _ => None end
  | CopyConst v u => match m v, m u with
      | None, Some x => Some (iput m v (Some x), ONone) | _, _ => None end
  | CopyLvalue v u => match m v, m u with        (* copying an empty Function this way is left to C63 *)
      | None, Some (Some c) => Some (iput m v (Some (Some c)), ONone) | _, _ => None end
  | MoveCtor v u => match m v, m u with
      | None, Some x => Some (iput (iput m v (Some x)) u (Some None), ONone) | _, _ => None end
  | AssignNull v => match m v with Some _ => Some (iput m v (Some None), ONone) | None => None end
  | AssignCallable v c => match m v with Some _ => Some (iput m v (Some (Some c)), ONone) | None => None end
  | AssignConst v u => match m v, m u with
      | Some _, Some x => if v =? u then None else Some (iput m v (Some x), ONone) | _, _ => None end
  | AssignLvalue v u => match m v, m u with
      | Some _, Some (Some c) => if v =? u then None else Some (iput m v (Some (Some c)), ONone)
      | _, _ => None end
  | AssignMove v u => match m v, m u with
      | Some _, Some x => if v =? u then None else Some (iput (iput m v (Some x)) u (Some None), ONone)
      | _, _ => None end
  | IsSet v => match m v with
      | Some (Some _) => Some (m, OBool true) | Some None => Some (m, OBool false) | None => None end
  | Invoke v a => match m v with Some (Some c) => Some (m, ORet (call c a)) | _ => None end
  | UsingInline v => None                        (* says nothing about storage: see [exact] *)
  | Destroy v => match m v with Some _ => Some (iput m v None, ONone) | None => None end
  end.

Fixpoint ideals (m : ivals) (l : list (op C A)) : option (ivals * list (output R)) :=
  match l with
  | [] => Some (m, [])
  | o :: l' =>
    match ideal m o with
    | None => None
    | Some (m, r) => match ideals m l' with Some (m, rs) => Some (m, r :: rs) | None => None end
    end
  end.

(** * What this implementation does, exactly *)
(** (n, x): the callable x, or nothing, inside n layers of Function. *)
Definition fval := (nat * option C)%type.
Definition vals := var -> option fval.
Definition no_vars : vals := fun _ => None.
Definition put (m : vals) (v : var) (x : option fval) : vals := fun u => if u =? v then x else m u.

(** operator new calls needed to create a copy of it. *)
Definition blocks (x : fval) : nat :=
  fst x + match snd x with Some c => if fits_inline c then 0 else 1 | None => 0 end.

(** Result: new values, output, and the number of operator new calls. *)
Definition exact (m : vals) (o : op C A) : option (vals * output R * nat) :=
  match o with
  | New v => match m v with None => Some (put m v (Some (0, None)), ONone, 0) | _ => None end
  | FromCallable v c => match m v with
      | None => Some (put m v (Some (0, Some c)), ONone, blocks (0, Some c)) | _ => None end
  | CopyConst v u => match m v, m u with
      | None, Some x => Some (put m v (Some x), ONone, blocks x) | _, _ => None end
  | CopyLvalue v u => match m v, m u with
      | None, Some (n, x) => Some (put m v (Some (S n, x)), ONone, blocks (S n, x)) | _, _ => None end
  | MoveCtor v u => match m v, m u with
      | None, Some x => Some (put (put m v (Some x)) u (Some (0, None)), ONone, 0) | _, _ => None end
  | AssignNull v => match m v with Some _ => Some (put m v (Some (0, None)), ONone, 0) | None => None end
  | AssignCallable v c => match m v with
      | Some _ => Some (put m v (Some (0, Some c)), ONone, blocks (0, Some c)) | None => None end
  | AssignConst v u => match m v, m u with
      | Some _, Some x => if v =? u then None else Some (put m v (Some x), ONone, blocks x) | _, _ => None end
  | AssignLvalue v u => match m v, m u with
      | Some _, Some (n, x) =>
          if v =? u then None else Some (put m v (Some (S n, x)), ONone, blocks (S n, x))
      | _, _ => None end
  | AssignMove v u => match m v, m u with
      | Some _, Some x =>
          if v =? u then None else Some (put (put m v (Some x)) u (Some (0, None)), ONone, 0)
      | _, _ => None end
  | IsSet v => match m v with
      | Some (0, None) => Some (m, OBool false, 0) | Some _ => Some (m, OBool true, 0) | None => None end
  | Invoke v a => match m v with Some (_, Some c) => Some (m, ORet (call c a), 0) | _ => None end
  | UsingInline v => match m v with
      | Some (0, Some c) => Some (m, OBool (fits_inline c), 0)
      | Some _ => Some (m, OBool false, 0) | None => None end
  | Destroy v => match m v with Some _ => Some (put m v None, ONone, 0) | None => None end
  end.

Fixpoint exacts (m : vals) (l : list (op C A)) : option (vals * list (output R) * nat) :=
  match l with
  | [] => Some (m, [], 0)
  | o :: l' =>
    match exact m o with
    | None => None
    | Some (m, r, k) =>
      match exacts m l' with Some (m, rs, k') => Some (m, r :: rs, k + k') | None => None end
    end
  end.
End Spec.
Arguments no_ivars {C}. Arguments no_vars {C}. Arguments iput {C}. Arguments put {C}. Arguments blocks {C}.
Arguments ideal {C A R}. Arguments ideals {C A R}. Arguments exact {C A R}. Arguments exacts {C A R}.
