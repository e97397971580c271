(** Specification: every live list is a sequence of nodes, a node is in at most one of them. *)
From Verif Require Import Base InlineListModel.

(** [None]: the list does not exist. *)
Definition astate := nat -> option (list nat).
Definition astate0 : astate := fun _ => None.
Definition in_list (A : astate) (l n : nat) : Prop := exists s, A l = Some s /\ In n s.
Definition in_some (A : astate) (n : nat) : Prop := exists l, in_list A l n.
Definition set_list (A : astate) (l : nat) (v : option (list nat)) : astate := fun l' => if l =? l' then v else A l'.
Definition del (n : nat) (s : list nat) : list nat := filter (fun x => negb (n =? x)) s.

(** What the caller must respect. *)
Definition pre (A : astate) (o : op) : Prop :=
  match o with
  | LNew l => A l = None
  | LAppend l n => A l <> None /\ ~ in_some A n
  | LRemove l n => in_list A l n
  | LUnlink n => in_some A n
  | LDelete l | LIterate _ l | LEraseIf _ _ l | LLength l | LEmpty l => A l <> None
  | LIsInList _ => True
  end.

(** The effect on the sequences. *)
Definition effect (A : astate) (o : op) : astate :=
  match o with
  | LNew l => set_list A l (Some [])
  | LDelete l => set_list A l None
  | LAppend l n => set_list A l (option_map (fun s => s ++ [n]) (A l))
  | LRemove l n => set_list A l (option_map (del n) (A l))
  | LUnlink n => fun l => option_map (del n) (A l)
  | LEraseIf _ pred l => set_list A l (option_map (filter (fun x => negb (pred x))) (A l))
  | _ => A
  end.

(** The result the caller must see; [len_exact]/[in_exact] switch on the claims of length() / isInList(). *)
Definition shows (len_exact in_exact : bool) (A : astate) (o : op) (r : out) : Prop :=
  match o with
  | LIterate dir l | LEraseIf dir _ l =>
      exists s, A l = Some s /\ r = RNodes (if dir then s else rev s)
  | LEmpty l => exists s, A l = Some s /\ r = RBool (match s with [] => true | _ => false end)
  | LLength l => exists s k, A l = Some s /\ r = RNum k /\ (len_exact = true -> k = (N.of_nat (length s) mod 2 ^ 64)%N)
  | LIsInList n =>
      exists b, r = RBool b /\ (in_some A n -> b = true) /\ (in_exact = true -> b = true -> in_some A n)
  | _ => r = RUnit
  end.

Inductive explains (len_exact in_exact : bool) : astate -> list op -> list out -> astate -> Prop :=
| ex_nil A : explains len_exact in_exact A [] [] A
| ex_cons A o r ops rs A' :
    shows len_exact in_exact A o r -> explains len_exact in_exact (effect A o) ops rs A' ->
    explains len_exact in_exact A (o :: ops) (r :: rs) A'.

Fixpoint legal (A : astate) (ops : list op) : Prop :=
  match ops with
  | [] => True
  | o :: rest => pre A o /\ legal (effect A o) rest
  end.

Definition is_unlink (o : op) : bool := match o with LUnlink _ => true | _ => false end.
(** Number of appends: an upper bound for the length of any list. *)
Definition is_append (o : op) : bool := match o with LAppend _ _ => true | _ => false end.
Definition appends (ops : list op) : nat := length (filter is_append ops).

(** What length() actually tracks: nodes that left through removeFromParentList are still counted.
    [ueffect] is the number of such nodes per list, reset when the list is constructed. *)
Definition has (A : astate) (l n : nat) : bool :=
  match A l with Some s => existsb (Nat.eqb n) s | None => false end.
Definition ueffect (A : astate) (o : op) (u : nat -> nat) : nat -> nat :=
  match o with
  | LNew l => nupd u l 0
  | LUnlink n => fun l => if has A l n then S (u l) else u l
  | _ => u
  end.

(** Counters and sequences after a history. *)
Fixpoint uafter (A : astate) (ops : list op) (u : nat -> nat) : nat -> nat :=
  match ops with [] => u | o :: r => uafter (effect A o) r (ueffect A o u) end.
Fixpoint after (A : astate) (ops : list op) : astate :=
  match ops with [] => A | o :: r => after (effect A o) r end.

