(** What the usage text must look like. *)
From Coq Require Import String.
From Verif Require Import Base ArgModel StrModel StrSpec UsageModel.
Local Open Scope nat_scope.
Local Open Scope list_scope.

Definition space : str := lit " ".
Definition unlines (ls : list str) : str := concat (map (fun l => l ++ [10%N]) ls).

(** Breaking [words] into lines of at most 50 characters: all words in order; a line with several words fits; a line
    ends only where the next word would not fit. *)
Definition fits_line (g : list str) : Prop := length (intercalate space g) <= 50 \/ exists x, g = [x].
Inductive wrapped : list str -> list (list str) -> Prop :=
| wr_none : wrapped [] []
| wr_last g : g <> [] -> fits_line g -> wrapped g [g]
| wr_more g word rest gs : g <> [] -> fits_line g -> 50 < length (intercalate space (g ++ [word])) ->
    wrapped (word :: rest) gs -> wrapped (g ++ word :: rest) (g :: gs).

(** The rows that show the left cells and the help lines: if a left cell is too wide (28 or more), all left cells on
    rows of their own and then the help lines in the right column; otherwise side by side. *)
Definition cell (l : list str) (k : nat) : str := nth k l [].
Definition padded (s : str) : str := s ++ repeat 32%N (28 - length s).
Definition shows (cells helps rows : list str) : Prop :=
  ((exists l, In l cells /\ 28 <= length l) /\ rows = cells ++ map (fun h => repeat 32%N 28 ++ h) helps)
  \/ ((forall l, In l cells -> length l < 28)
      /\ rows = map (fun k => padded (cell cells k) ++ cell helps k) (seq 0 (Nat.max (length cells) (length helps)))).

(** The left cells. *)
Definition value_name (o : udesc) : str :=
  map (fun c => if N.eqb c 45 then 95%N else ascii_upper c) (match u_long o with Some l => l | None => match u_short o with Some s => s | None => [] end end).
Definition value_part (o : udesc) : str := if u_must o || u_can o then [] else lit "=" ++ value_name o.
Inductive option_left (o : udesc) : list str -> Prop :=
| ol_short s : u_short o = Some s -> u_long o = None -> option_left o [lit "  -" ++ s ++ lit " "]
| ol_long l : u_short o = None -> u_long o = Some l -> option_left o [lit "  --" ++ l ++ value_part o ++ lit " "]
| ol_one s l : u_short o = Some s -> u_long o = Some l ->
    length (lit "  -" ++ s ++ lit ", --" ++ l ++ value_part o ++ lit " ") <= 28 ->
    option_left o [lit "  -" ++ s ++ lit ", --" ++ l ++ value_part o ++ lit " "]
| ol_two s l : u_short o = Some s -> u_long o = Some l ->
    28 < length (lit "  -" ++ s ++ lit ", --" ++ l ++ value_part o ++ lit " ") ->
    option_left o [lit "  -" ++ s ++ lit " "; lit "  --" ++ l ++ value_part o ++ lit " "].
Definition name_left (o : udesc) (cells : list str) : Prop := exists n, u_name o = Some n /\ cells = [lit "  " ++ n].

(** The help text cut at single spaces, and its lines. *)
Definition help_right (o : udesc) (helps : list str) : Prop :=
  exists h words gs, u_help o = Some h /\ splits space h words /\ wrapped words gs /\ helps = map (intercalate space) gs.
Definition entry (left : udesc -> list str -> Prop) (o : udesc) (rows : list str) : Prop :=
  exists cells helps, left o cells /\ help_right o helps /\ shows cells helps rows.

Definition heading (present : bool) (title : str) : list str := if present then [[]; title] else [].
Definition nonempty {A} (l : list A) : bool := match l with [] => false | _ => true end.

(** Descriptions as the constructors leave them: C strings (no NUL), a name or at least one form, a help text; byte
    values; lengths representable.  Names that are shown in upper case must be ASCII where char is signed. *)
Definition good_text (w : N) (s : str) : Prop := ~ In 0%N s /\ (N.of_nat (length s) < 2 ^ w)%N.
Definition good_help (w : N) (o : udesc) : Prop := exists h, u_help o = Some h /\ good_text w h.
Definition good_named (w : N) (o : udesc) : Prop := good_help w o /\ exists n, u_name o = Some n /\ ~ In 0%N n.
Definition good_option (w : N) (char_signed : bool) (o : udesc) : Prop :=
  good_help w o /\ u_name o = None /\ (u_short o <> None \/ u_long o <> None)
  /\ forall n, u_short o = Some n \/ u_long o = Some n ->
     n <> [] /\ good_text w n /\ Forall is_byte n /\ (char_signed = false \/ Forall (fun b => b < 128)%N n).
