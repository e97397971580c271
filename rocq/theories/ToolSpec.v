(** Specification for the search path list. *)
From Verif Require Import Base ToolModel.
Local Open Scope nat_scope.

(** A list of lines as bytes: each with its newline. *)
Definition join_lines (ls : list text) : text := flat_map (fun l => l ++ [NL]) ls.
(** A line that can be read: no newline or NUL in it, and short enough for the buffer. *)
Definition plain_line (l : text) : Prop := ~ In NL l /\ ~ In 0%N l /\ length l <= 1022.
(** [x] is [l] without the white space around it. *)
Definition trimmed (l x : text) : Prop :=
  exists a b, l = a ++ x ++ b /\ (forall c, In c (a ++ b) -> space c = true) /\
    (forall c, nth_error x 0 = Some c -> space c = false) /\ (forall c r, x = r ++ [c] -> space c = false).
Definition starts_with (s l : text) : Prop := exists r, l = s ++ r.
(** The paths of a listing: the trimmed lines that are not blank, from behind the first line that starts with [s] to the
    first line after it that starts with [e], or to the end of the listing if there is none.  Further lines that start
    with [s] are skipped. *)
Inductive paths_of (s e : text) : list text -> list text -> Prop :=
| paths_end : paths_of s e [] []
| paths_again l ls ps : starts_with s l -> paths_of s e ls ps -> paths_of s e (l :: ls) ps
| paths_stop l ls : ~ starts_with s l -> starts_with e l -> paths_of s e (l :: ls) []
| paths_blank l ls ps : ~ starts_with s l -> ~ starts_with e l -> trimmed l [] -> paths_of s e ls ps -> paths_of s e (l :: ls) ps
| paths_line l ls x ps : ~ starts_with s l -> ~ starts_with e l -> trimmed l x -> x <> [] -> paths_of s e ls ps -> paths_of s e (l :: ls) (x :: ps).
Definition listing (s e : text) (ls : list text) (ps : list text) : Prop :=
  (Forall (fun l => ~ starts_with s l) ls /\ ps = []) \/
  exists before l after, ls = before ++ l :: after /\ Forall (fun l => ~ starts_with s l) before /\ starts_with s l /\ paths_of s e after ps.
