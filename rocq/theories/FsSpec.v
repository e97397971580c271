(** Specification of the file queries: which file a path leads to. *)
From Verif Require Import Base FsModel.
Local Open Scope nat_scope.

Section Leads.
Variable root : nat.
Variable f : disk.
(** From directory [cur] the names [cs] lead to file [i], through [n] symbolic links. *)
Inductive leads : nat -> list N -> nat -> nat -> Prop :=
| L_here i : f i <> None -> leads i [] 0 i
| L_enter cur entry w c j r n i : f cur = Some (NDir entry w true) -> entry c = Some j -> f j <> None -> (forall a t, f j <> Some (NLink a t)) ->
    leads j r n i -> leads cur (c :: r) n i
| L_link cur entry w c j a t r n i : f cur = Some (NDir entry w true) -> entry c = Some j -> f j = Some (NLink a t) ->
    leads (if a then root else cur) (t ++ r) n i -> leads cur (c :: r) (S n) i.
End Leads.
(** The path names file [i]: at most 40 links on the way (MAXSYMLINKS). *)
Definition names_file (root cwd : nat) (f : disk) (p : path) (i : nat) : Prop :=
  exists n, n <= 40 /\ leads root f (if absolute p then root else cwd) (names p) n i.

(** Nothing is lost: every file of [f] is in [g], the same, or a directory with the same entries and possibly new ones. *)
Definition extends (f g : disk) : Prop :=
  forall i n, f i = Some n -> g i = Some n \/
    exists e e' w x, n = NDir e w x /\ g i = Some (NDir e' w x) /\ forall c j, e c = Some j -> e' c = Some j.

(** Several processes: a call of CreateDirectory (any path, any rights, any allocation), or any other change of the disk. *)
Inductive event := Create (p : path) (w x : bool) (room : option nat) | Other (g : disk).
(** Room is what is not in use. *)
Definition room_ok (f : disk) (room : option nat) : Prop := match room with Some i => f i = None | None => True end.
(** Histories in which nobody makes [p] disappear; the results of the calls for [p], in order. *)
Inductive history (root cwd : nat) (p : path) : disk -> list event -> list bool -> disk -> Prop :=
| H_nil f : history root cwd p f [] [] f
| H_create f w x room es rs g : room_ok f room -> history root cwd p (snd (CreateDirectory root cwd f p w x room)) es rs g ->
    history root cwd p f (Create p w x room :: es) (fst (CreateDirectory root cwd f p w x room) :: rs) g
| H_create_other f q w x room es rs g : q <> p -> room_ok f room -> history root cwd p (snd (CreateDirectory root cwd f q w x room)) es rs g ->
    history root cwd p f (Create q w x room :: es) rs g
| H_other f f' es rs g : (PathExists root cwd f p = true -> PathExists root cwd f' p = true) -> history root cwd p f' es rs g ->
    history root cwd p f (Other f' :: es) rs g.
