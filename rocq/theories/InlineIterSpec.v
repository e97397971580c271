(** Specification of iterators over the sequences of InlineListSpec: an iterator denotes a node, or the end of a list,
    wherever that node may be by now. *)
From Verif Require Import Base InlineListModel InlineListSpec InlineIterModel.

Inductive place := AtNode (n : nat) | AtEnd (l : nat) | Nowhere.
(** What each variable denotes: its direction (true: forwards) and its place. *)
Definition places := nat -> bool * place.
Definition places0 : places := fun _ => (true, Nowhere).
Definition pset (P : places) (v : nat) (x : bool * place) : places := fun w => if v =? w then x else P w.

(** The first place met on a walk over [s] in list l. *)
Definition first (l : nat) (s : list nat) : place := match s with [] => AtEnd l | n :: _ => AtNode n end.
(** x follows n, in direction dir, in the list n is in NOW. *)
Definition follows (A : astate) (dir : bool) (n : nat) (x : place) : Prop :=
  exists l s1 s2, A l = Some (s1 ++ n :: s2) /\ x = first l (if dir then s2 else rev s1).

(** What the caller must respect: an iterator may be advanced while its node is in some list, erased from the list its
    node is in, read as long as it denotes a node; nothing is asked about what happened to the lists in between. *)
Definition cpre (A : astate) (P : places) (c : cmd) : Prop :=
  match c with
  | COp o => pre A o
  | CBegin _ _ l | CEnd _ _ l => A l <> None
  | CNext v | CPost v _ => exists n, snd (P v) = AtNode n /\ in_some A n
  | CCopy _ _ => True
  | CGet v => exists n, snd (P v) = AtNode n
  | CEq v w => fst (P v) = fst (P w)
  | CErase v _ l => exists n, snd (P v) = AtNode n /\ in_list A l n
  end.

(** The effect of a statement and what it shows. *)
Inductive ceffect (A : astate) (P : places) : cmd -> cout -> astate -> places -> Prop :=
| ce_op o r : shows false false A o r -> ceffect A P (COp o) (OList r) (effect A o) P
| ce_begin v (dir : bool) l s : A l = Some s ->
    ceffect A P (CBegin v dir l) ONone A (pset P v (dir, first l (if dir then s else rev s)))
| ce_end v dir l : ceffect A P (CEnd v dir l) ONone A (pset P v (dir, AtEnd l))
| ce_next v n x : snd (P v) = AtNode n -> follows A (fst (P v)) n x ->
    ceffect A P (CNext v) ONone A (pset P v (fst (P v), x))
| ce_post v w n x : snd (P v) = AtNode n -> follows A (fst (P v)) n x ->
    ceffect A P (CPost v w) ONone A (pset (pset P v (fst (P v), x)) w (P v))
| ce_copy v w : ceffect A P (CCopy v w) ONone A (pset P w (P v))
| ce_get v n : snd (P v) = AtNode n -> ceffect A P (CGet v) (ONode n) A P
| ce_eq v w (b : bool) : (b = true <-> snd (P v) = snd (P w)) -> ceffect A P (CEq v w) (OCmp b (negb b)) A P
| ce_erase v w l n x : snd (P v) = AtNode n -> follows A (fst (P v)) n x ->
    ceffect A P (CErase v w l) ONone (set_list A l (option_map (del n) (A l)))
      (pset (pset P v (fst (P v), Nowhere)) w (fst (P v), x)).

(** A legal program: each statement's precondition holds whatever the (allowed) effects so far were. *)
Fixpoint clegal (A : astate) (P : places) (cs : list cmd) : Prop :=
  match cs with
  | [] => True
  | c :: rest => cpre A P c /\ forall r A' P', ceffect A P c r A' P' -> clegal A' P' rest
  end.
(** The observed results are those of the specification. *)
Inductive cexplains : astate -> places -> list cmd -> list cout -> astate -> places -> Prop :=
| cx_nil A P : cexplains A P [] [] A P
| cx_cons A P c r A1 P1 cs rs A2 P2 :
    ceffect A P c r A1 P1 -> cexplains A1 P1 cs rs A2 P2 -> cexplains A P (c :: cs) (r :: rs) A2 P2.

(** Number of appends: an upper bound for the length of any list. *)
Definition c_append (c : cmd) : bool := match c with COp o => is_append o | _ => false end.
Definition cappends (cs : list cmd) : nat := length (filter c_append cs).
