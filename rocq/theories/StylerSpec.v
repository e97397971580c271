(** Specification for the restyler: what "changes only white space" means, and which sources are laid out so that the
    tool can be expected to handle them. *)
From Verif Require Import Base RewriteModel RewriteSpec StylerModel.
Local Open Scope nat_scope.

(** A text without its white space. *)
Definition squeeze (t : text) : text := filter (fun c => negb (white c)) t.
Definition is_char (t : text) (i : nat) (P : N -> Prop) : Prop := exists c, nth_error t i = Some c /\ P c.
Definition solid (t : text) (i : nat) : Prop := is_char t i (fun c => white c = false).
(** Only white space in positions a, ..., b - 1. *)
Definition blank_between (t : text) (a b : nat) : Prop := forall i c, a <= i < b -> nth_error t i = Some c -> white c = true.

(** The lines of a text: [leading t i x]: [x] is the white space at the beginning of the line that position [i] is on, up to
    the first other character of the line, which is at or before [i]. *)
Definition line_start (t : text) (i ls : nat) : Prop :=
  ls <= i /\ (ls = 0 \/ nth_error t (ls - 1) = Some NL) /\ forall k, ls <= k < i -> nth_error t k <> Some NL.
Definition leading (t : text) (i : nat) (x : text) : Prop :=
  exists ls, line_start t i ls /\ x = firstn (length x) (skipn ls t) /\ (forall c, In c x -> white c = true) /\
    solid t (ls + length x) /\ ls + length x <= i.

Section Layout.
Variable t : text.
Variable tok_end : nat -> nat.
Variable kind : nat -> tk.

(** From [i], over white space and comments, to the token at [j]. *)
Inductive reaches : nat -> nat -> Prop :=
| reaches_here i j : i <= j -> blank_between t i j -> solid t j -> kind j <> KComment -> reaches i j
| reaches_comment i k j : i <= k -> blank_between t i k -> solid t k -> kind k = KComment -> k < tok_end k <= length t ->
    reaches (tok_end k) j -> reaches i j.
(** From the token or white space at [i], over tokens and white space, to white space that starts at [e] and ends at [b]. *)
Inductive leads : nat -> nat -> nat -> Prop :=
| leads_here e b : e < b -> blank_between t e b -> solid t b -> leads e e b
| leads_white i j e b : i < j -> blank_between t i j -> solid t j -> leads j e b -> leads i e b
| leads_token i e b : solid t i -> i < tok_end i -> leads (tok_end i) e b -> leads i e b.

(** A body at [b] that follows the closing parenthesis [p], with nothing but white space (and some) between them. *)
Definition follows_paren (p b : nat) : Prop :=
  is_char t p (fun c => c = 41%N) /\ S p < b /\ blank_between t (S p) b /\ is_char t b (fun c => c = 123%N).
(** The token after the condition (which ends with the token at [e]) is the closing parenthesis [p], or the # of a
    preprocessor directive. *)
Definition paren_is (e p : nat) (directive : Prop) : Prop :=
  solid t e /\ tok_end e <= length t /\
  exists q, reaches (tok_end e) q /\ (kind q = KRParen /\ q = p \/ kind q = KHash /\ directive).
Definition neat_cond (s : cond) : Prop := c_main s = true -> c_compound s = true ->
  exists p, c_start s < p /\ follows_paren p (c_body s) /\ match c_end s with None => True | Some e => paren_is e p True end.
Definition neat_for (s : cond) (p : nat) : Prop := c_main s = true -> c_compound s = true -> c_start s < length t /\ follows_paren p (c_body s).
Definition neat_catch (s : cond) (decl_end : option nat) : Prop := c_main s = true -> c_compound s = true ->
  exists e p, decl_end = Some e /\ c_start s < length t /\ follows_paren p (c_body s) /\ paren_is e p False.

(** An empty body: the braces are apart, or on the line of the parenthesis. *)
Definition neat_braces (b : nat) (br : option (nat * bool)) (last : nat) : Prop :=
  forall rb, br = Some (rb, true) -> solid t rb /\ b < rb /\ tok_end b = S b /\ (S b < rb \/ line_of t last = line_of t b).
(** The closing parenthesis [r] of an initializer: if a comma follows on another line, then only white space is between. *)
Definition neat_init (r : nat) : Prop :=
  is_char t r (fun c => c = 41%N \/ c = 125%N) /\
  exists n, reaches (S r) n /\ (kind n = KComma -> is_char t n (fun c => c = 44%N) /\ (line_of t r = line_of t n \/ blank_between t (S r) n)).
(** [p] is the closing parenthesis that appears last, and alone on its line. *)
Definition last_alone (te : nat) (inits : list (option nat)) (p : nat) : Prop :=
  (p = te /\ forall r, In (Some r) inits -> line_of t r <= line_of t te) \/
  (In (Some p) inits /\ line_of t te < line_of t p /\ forall r, In (Some r) inits -> r = p \/ line_of t r < line_of t p).
Definition neat_func (f : func) : Prop := f_main f = true ->
  (forall e, f_operator f = Some e -> 0 < e < length t /\ nth_error t (e - 1) = Some 114%N) /\
  forall b br, f_body f = Some (b, br) -> solid t b /\
    (forall inits, f_ctor f = Some inits -> forall r, In (Some r) inits -> neat_init r) /\
    forall tb te, f_type f = Some (tb, te) -> tb < length t /\
      match f_ctor f with
      | Some [] => True
      | Some inits => exists p, last_alone te inits p /\ neat_braces b br p /\
          (line_of t p = line_of t b -> line_of t te <> line_of t b -> S p < b /\ blank_between t (S p) b)
      | None => neat_braces b br te /\ (line_of t te = line_of t b -> exists e, leads te e b)
      end.
Definition neat (n : node) : Prop :=
  match n with
  | NCond s => neat_cond s
  | NFor s p => neat_for s p
  | NCatch s e => neat_catch s e
  | NFunc f => neat_func f
  end.
(** The places in the source that belong to a node. *)
Definition places (n : node) : list nat :=
  match n with
  | NCond s | NFor s _ | NCatch s _ => [c_body s]
  | NFunc f =>
      (match f_operator f with Some e => [e] | None => [] end) ++
      (match f_body f with Some (b, Some (rb, _)) => [b; rb] | Some (b, None) => [b] | None => [] end) ++
      (match f_ctor f with Some l => flat_map (fun x => match x with Some r => [r] | None => [] end) l | None => [] end)
  end.
(** [b] is another declaration at the start of the function definition [a] (such as a template and its pattern). *)
Definition again (a b : node) : Prop :=
  exists f g, a = NFunc f /\ b = NFunc g /\ f_start f = f_start g /\ f_main f = true /\ f_body f <> None /\ f_type f <> None.
(** No place belongs to two nodes, or twice to one. *)
Definition distinct (ns : list node) : Prop :=
  Forall (fun n => NoDup (places n)) ns /\
  ForallOrdPairs (fun a b => again a b \/ forall i, In i (places a) -> ~ In i (places b)) ns.
(** A piece of text a, ..., b - 1 such as a literal or a comment: it begins and ends with something other than white space
    (and not with a comma), and no place of a node is in it. *)
Definition untouched (ns : list node) (a b : nat) : Prop :=
  a < b /\ is_char t a (fun c => white c = false /\ c <> 44%N) /\ solid t (b - 1) /\
  forall n i, In n ns -> In i (places n) -> ~ a <= i < b.
End Layout.

(** The restyler, run on the text [t] whose nodes are [ns], writes [out]. *)
Definition restyled (w : N) (debug : bool) (t : text) (tok_end : nat -> nat) (kind : nat -> tk) (fuel : nat) (ns : list node) (out : text) : Prop :=
  exists o seen, visit_all w debug t tok_end kind fuel ([], []) ns = Ok (o, seen) /\
    forall sorted, sorted_by_offset o sorted -> emit w debug t sorted = Ok (out, []).
