(** What a program over Functions means when a Function is a value: empty, or a callable together with the values of the Functions
    it captures.  Copies are deep, nothing is shared. *)
From Verif Require Import Base FnNestModel.

(** The value of the Function that is reached from a value through captures of captures, if there is one. *)
Fixpoint lookup (v : option tree) (ks : list nat) : option (option tree) :=
  match ks with
  | [] => Some v
  | k :: ks => match v with
               | Some (Node _ vs) => match nth_error vs k with Some w => lookup w ks | None => None end
               | None => None
               end
  end.
Fixpoint change (v : option tree) (ks : list nat) (w : option tree) : option tree :=
  match ks with
  | [] => w
  | k :: ks => match v with
               | Some (Node c vs) => Some (Node c (upd vs k (change (nth k vs None) ks w)))
               | None => None
               end
  end.
Definition store := list (option tree).
Definition at_ (st : store) (p : path) : option (option tree) :=
  match nth_error st (fst p) with Some v => lookup v (snd p) | None => None end.
Definition set_at (st : store) (p : path) (w : option tree) : store :=
  upd st (fst p) (change (nth (fst p) st None) (snd p) w).

(** One Function is inside the callable of another. *)
Definition inside (p q : path) : Prop := fst p = fst q /\ exists k ks, snd p = snd q ++ k :: ks.
Definition unrelated (p q : path) : Prop := p <> q /\ ~ inside p q /\ ~ inside q p.

(** The value a new Function gets, and what remains. *)
Definition taken (st : store) (q : path) (m : mode) (v : option tree) : store * option tree :=
  match m with
  | Const => (st, v)
  | NonConst => (st, Some (Node wrapper [v]))
  | Moved => (set_at st q None, v)
  end.
Inductive takes : store -> list (path * mode) -> store -> list (option tree) -> Prop :=
| t_nil st : takes st [] st []
| t_cons st q m v qs st' vs : at_ st q = Some v -> takes (fst (taken st q m v)) qs st' vs ->
    takes st ((q, m) :: qs) st' (snd (taken st q m v) :: vs).
(** [means st ks st' seen]: every Function named exists, an assignment is between unrelated Functions (or is a copy into an empty
    one), and the calls see [seen]. *)
Inductive means : store -> list cmd -> store -> list (option tree) -> Prop :=
| m_done st : means st [] st []
| m_clear st p v ks st' seen : at_ st p = Some v -> means (set_at st p None) ks st' seen -> means st (Clear p :: ks) st' seen
| m_assign st p m q u v ks st' seen : at_ st p = Some u -> at_ st q = Some v ->
    unrelated p q \/ (u = None /\ m <> Moved) ->
    means (set_at (fst (taken st q m v)) p (snd (taken st q m v))) ks st' seen -> means st (Assign p m q :: ks) st' seen
| m_set st p c qs st1 vs u ks st' seen : takes st qs st1 vs -> at_ st1 p = Some u ->
    means (set_at st1 p (Some (Node c vs))) ks st' seen -> means st (Set_ p c qs :: ks) st' seen
| m_call st p v ks st' seen : at_ st p = Some v -> means st ks st' seen -> means st (Call p :: ks) st' (v :: seen).
