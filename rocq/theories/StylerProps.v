(** Property theorems C94-C97: the restyler's visitors. *)
From Verif Require Import Base RewriteModel RewriteSpec RewriteProofs RewriteProps StylerModel StylerSpec StylerProofs StylerVisit.
Local Open Scope nat_scope.
Local Open Scope list_scope.

(** * C94 *)
(** Sources laid out neatly (StylerSpec.v), any number of nodes, any lexer, debug and release builds: the restyler
    returns, and the text it writes has the same characters in the same order apart from white space; every literal or
    comment is there unchanged, at its place.  Partial: see the refutations for other layouts. *)
Theorem C94_only_white_space_partial : forall w debug t tok_end kind fuel ns,
  (N.of_nat (length t) < 2 ^ w - 1)%N -> length t < fuel -> Forall (neat t tok_end kind) ns -> distinct ns ->
  exists out, restyled w debug t tok_end kind fuel ns out /\ squeeze out = squeeze t /\
    forall a b, untouched t ns a b ->
      exists l r, out = l ++ firstn (b - a) (skipn a t) ++ r /\ squeeze l = squeeze (firstn a t) /\ squeeze r = squeeze (skipn b t).
Proof.
  intros w debug t tok_end kind fuel ns Hw Hf HN HD.
  destruct (visit_all_ok w debug t tok_end kind Hw fuel ns Hf HN HD [] [] []) as (es & seen & E & F & ND & P & _); [intros f []|intros n m []|].
  exists (edited (all_ops es) 0 t). split; [|split].
  - exists (all_ops es), seen. split; [exact E|]. intros sorted Hs.
    destruct (all_ops_inside t tok_end kind es F). apply C89_edits_applied_partial; auto. now apply (all_ops_apart t tok_end kind).
  - now apply (squeeze_edited t tok_end kind).
  - intros a b (L & Ca & Sb & U). apply (squeeze_piece t tok_end kind); auto. intros x Hx. destruct (P x Hx) as (n & Hn & Hp). exact (U n x Hn Hp).
Qed.
Print Assumptions C94_only_white_space_partial.

(** White space is space, \t, \n, \v, \f and \r, and nothing else; the line break is \n. *)
Theorem C94_white_space_bytes : (forall c, white c = true <-> In c [32; 9; 10; 11; 12; 13]%N) /\ NL = 10%N.
Proof.
  split; [|reflexivity]. intros c. unfold white. rewrite Bool.orb_true_iff, Bool.andb_true_iff, N.eqb_eq, !N.leb_le. cbn [In]. lia.
Qed.
Print Assumptions C94_white_space_bytes.

(** One edit. *)
Lemma sorted_one (op : operation N) l : sorted_by_offset [op] l -> l = [op].
Proof. intros [P _]. now apply Permutation_length_1_inv. Qed.
Lemma sorted_single (op : operation N) : sorted_by_offset [op] [op].
Proof. split; [apply Permutation_refl|]. intros [|i] [|j] a b L H1 H2; try lia; destruct j; discriminate. Qed.
Lemma edited_gone (ops : list (operation N)) : forall l i,
  (forall k, i <= k < i + length l -> existsb (fun op => takes_away op k) ops = true) ->
  (forall op k, In op ops -> i <= k < i + length l -> offset op <> k) -> edited ops i l = [].
Proof.
  induction l as [|c l IH]; intros i H1 H2; [reflexivity|]. cbn [edited]. rewrite IH.
  - unfold piece. rewrite (flat_none N before), (flat_none N behind), (H1 i); [reflexivity|cbn; lia| |].
    + intros op Ho. apply behind_elsewhere. apply (H2 op i Ho). cbn. lia.
    + intros op Ho. apply before_elsewhere. apply (H2 op i Ho). cbn. lia.
  - intros k Hk. apply H1. cbn [length]. lia.
  - intros op k Ho Hk. apply H2; [exact Ho|]. cbn [length]. lia.
Qed.
Lemma skipn_skipn' {A} i j (l : list A) : skipn i (skipn j l) = skipn (j + i) l.
Proof. revert l. induction j as [|j IH]; intros l; [reflexivity|]. destruct l as [|x l]; [now rewrite !skipn_nil|]. cbn. apply IH. Qed.
Lemma edited_replace (t : text) a b x : a < b -> b <= length t ->
  edited [Op Replace (N.of_nat a) (N.of_nat (b - a)) x] 0 t = firstn a t ++ x ++ skipn b t.
Proof.
  intros L B. destruct (skipn a t) as [|c m] eqn:Em.
  { apply (f_equal (@length N)) in Em. rewrite skipn_length in Em. cbn in Em. lia. }
  assert (Lm : length m = length t - a - 1) by (apply (f_equal (@length N)) in Em; rewrite skipn_length in Em; cbn in Em; lia).
  assert (Et : t = firstn a t ++ c :: firstn (b - a - 1) m ++ skipn b t).
  { rewrite <- (firstn_skipn a t) at 1. rewrite Em. f_equal. f_equal. replace (skipn b t) with (skipn (b - a - 1) m); [now rewrite firstn_skipn|].
    replace b with (a + S (b - a - 1)) at 2 by lia. rewrite <- skipn_skipn', Em. reflexivity. }
  set (op := Op Replace (N.of_nat a) (N.of_nat (b - a)) x).
  assert (Oo : offset op = a) by (unfold op, offset; cbn; apply Nat2N.id).
  assert (T : forall i, takes_away op i = (a <=? i) && (i <? b)).
  { intros i. unfold takes_away, op at 1. cbn [op_kind]. rewrite Oo. unfold op. cbn [op_length]. rewrite Nat2N.id. now replace (a + (b - a)) with b by lia. }
  assert (L1 : length (firstn a t) = a) by (rewrite firstn_length; lia).
  assert (L2 : length (firstn (b - a - 1) m) = b - a - 1) by (rewrite firstn_length; lia).
  rewrite Et at 1. rewrite edited_app, L1. cbn [Nat.add edited]. rewrite edited_app, L2. replace (S a + (b - a - 1)) with b by lia.
  rewrite (edited_same [op] (firstn a t) 0).
  2: { intros o k [<-|[]] Hk. rewrite L1 in Hk. rewrite Oo, T. split; [lia|]. apply andb_false_iff. left. apply Nat.leb_gt. lia. }
  rewrite (edited_gone [op] (firstn (b - a - 1) m) (S a)).
  2: { intros k Hk. rewrite L2 in Hk. cbn [existsb]. rewrite T. apply orb_true_iff. left. apply andb_true_intro. split; [apply Nat.leb_le|apply Nat.ltb_lt]; lia. }
  2: { intros o k [<-|[]] Hk. rewrite Oo. lia. }
  rewrite (edited_same [op] (skipn b t) b).
  2: { intros o k [<-|[]] Hk. rewrite Oo, T. split; [lia|]. apply andb_false_iff. right. apply Nat.ltb_ge. lia. }
  cbn [app]. f_equal. unfold piece. cbn [flat_map existsb]. rewrite T. unfold before, behind. rewrite Oo, Nat.eqb_refl. unfold op. cbn [op_kind op_text].
  rewrite Nat.leb_refl. destruct (Nat.ltb_spec a b); [|lia]. cbn [andb orb app]. now rewrite !app_nil_r.
Qed.
Lemma emit_replace w debug (t : text) a b x : a < b -> b <= length t -> (N.of_nat (length t) < 2 ^ w - 1)%N ->
  emit w debug t [Op Replace (N.of_nat a) (N.of_nat (b - a)) x] = Ok (firstn a t ++ x ++ skipn b t, []).
Proof.
  intros L B Hw. rewrite <- edited_replace by auto. apply C89_edits_applied_partial; auto.
  - split; [apply Permutation_refl|]. intros i j p q Hij Hp Hq. destruct j as [|[|j]]; try discriminate. lia.
  - repeat constructor.
  - constructor; [|constructor]. split; unfold offset; cbn; rewrite ?Nat2N.id; [lia|]. intros _. lia.
  - constructor; [|constructor]. intros _. cbn. lia.
Qed.
Lemma restyled_nothing w debug t tok_end kind fuel ns seen : visit_all w debug t tok_end kind fuel ([], []) ns = Ok ([], seen) ->
  (N.of_nat (length t) < 2 ^ w - 1)%N -> restyled w debug t tok_end kind fuel ns t.
Proof.
  intros E Hw. exists [], seen. split; [exact E|]. intros sorted [P _]. apply Permutation_nil in P. subst. unfold emit. rewrite loop_no_ops by now right.
  cbn. unfold assert_. now rewrite andb_false_r.
Qed.
Lemma restyled_replace w debug t tok_end kind fuel ns seen a b x :
  visit_all w debug t tok_end kind fuel ([], []) ns = Ok (replace w [] (N.of_nat a) (N.of_nat b) x, seen) ->
  (N.of_nat (length t) < 2 ^ w - 1)%N -> a < b -> b <= length t -> restyled w debug t tok_end kind fuel ns (firstn a t ++ x ++ skipn b t).
Proof.
  intros E Hw L B. eexists _, seen. split; [exact E|]. intros sorted Hs. unfold replace in Hs. cbn [app] in Hs. rewrite (usub_exact w t tok_end kind Hw) in Hs by lia.
  rewrite (sorted_one _ _ Hs). now apply emit_replace.
Qed.

Lemma newline_back_spec t i : i < length t -> nth_error t i <> Some NL ->
  exists r, newline_back t i = Ok r /\ line_start t i (match r with Some p => S p | None => 0 end).
Proof.
  intros L NN. assert (G : forall k, k <= i -> (forall j, k < j <= i -> nth_error t j <> Some NL) ->
    exists r, newline_back t k = Ok r /\ line_start t i (match r with Some p => S p | None => 0 end)).
  { induction k as [|k IH]; intros Lk H; cbn [newline_back].
    - destruct (nth_error t 0) as [c|] eqn:E; [|apply nth_error_None in E; lia]. rewrite (char_at_some t (fun _ => 0) (fun _ => KOther) 0 c E). cbn [bind].
      destruct (N.eqb_spec c NL) as [->|Hc]; (eexists; split; [reflexivity|]).
      + assert (0 <> i) by (intros <-; congruence). split; [lia|]. split; [right; exact E|]. intros j Hj. apply H. lia.
      + split; [lia|]. split; [now left|]. intros j Hj. destruct j as [|j]; [congruence|]. apply H. lia.
    - destruct (nth_error t (S k)) as [c|] eqn:E; [|apply nth_error_None in E; lia]. rewrite (char_at_some t (fun _ => 0) (fun _ => KOther) (S k) c E). cbn [bind].
      destruct (N.eqb_spec c NL) as [->|Hc].
      + eexists; split; [reflexivity|]. assert (S k <> i) by (intros <-; congruence). split; [lia|]. split; [right; cbn; exact E|]. intros j Hj. apply H. lia.
      + apply IH; [lia|]. intros j Hj. destruct (Nat.eq_dec j (S k)) as [->|]; [congruence|]. apply H. lia. }
  apply G; [lia|]. intros j Hj. lia.
Qed.
Lemma indent_spec t i : solid t i -> exists x, indent_for_line t i = Ok x /\ leading t i x.
Proof.
  intros (c & E & W). assert (L : i < length t) by (apply nth_error_Some; congruence).
  destruct (newline_back_spec t i L) as (r & Er & Ls); [rewrite E; intros [= ->]; discriminate|].
  unfold indent_for_line. rewrite Er. cbn [bind]. set (ls := match r with Some p => S p | None => 0 end) in *.
  assert (WR : white_run (skipn ls t) <= i - ls).
  { destruct (Nat.le_gt_cases (white_run (skipn ls t)) (i - ls)) as [|G]; [assumption|exfalso].
    assert (X : nth_error (skipn ls t) (i - ls) = Some c) by (rewrite nth_skipn; destruct Ls as (Ls & _); now replace (ls + (i - ls)) with i by lia).
    assert (In c (firstn (white_run (skipn ls t)) (skipn ls t))).
    { apply (nth_error_In _ (i - ls)). rewrite <- X. clear - G. revert G. generalize (skipn ls t) (white_run (skipn ls t)) (i - ls).
      intros l n m Hm. revert n m Hm. induction l as [|y l IH]; intros [|n] [|m] Hm; cbn; try lia; try reflexivity. apply IH. lia. }
    apply white_run_white in H. congruence. }
  eexists. split; [reflexivity|]. exists ls. split; [exact Ls|].
  assert (LL : length (firstn (white_run (skipn ls t)) (skipn ls t)) = white_run (skipn ls t)) by (rewrite firstn_length; pose proof (white_run_le (skipn ls t)); lia).
  rewrite LL. split; [reflexivity|]. split; [intros d; apply white_run_white|]. destruct Ls as (Ls & _). split; [|lia].
  destruct (nth_error t (ls + white_run (skipn ls t))) as [d|] eqn:Ed; [|apply nth_error_None in Ed; lia].
  exists d. split; [exact Ed|]. rewrite <- nth_skipn in Ed. clear - Ed. revert Ed. generalize (skipn ls t). intros l. induction l as [|y l IH]; cbn; [discriminate|].
  destruct (white y) eqn:Wy; cbn; [exact IH|]. intros [= <-]. exact Wy.
Qed.

(** Refuted: the text between the closing parenthesis of a multi-line `for' and its brace is deleted, whatever it is
    (a comment, say). *)
Definition for_node (start p b : nat) : node := NFor (Cond true start true b None) p.
Lemma for_split w debug t tok_end kind fuel start p b :
  solid t start -> line_of t start <> line_of t p -> line_of t p = line_of t b ->
  exists ind, leading t start ind /\ visit_all w debug t tok_end kind fuel ([], []) [for_node start p b] = Ok (replace w [] (N.of_nat (S p)) (N.of_nat b) (NL :: ind), []).
Proof.
  intros Ss Ne Eq. destruct (indent_spec t start Ss) as (ind & Ei & Li). exists ind. split; [exact Li|].
  unfold for_node. cbn [visit_all visit visit_for c_main c_compound c_body c_start negb fst snd]. unfold maybe_split_brace.
  destruct (Nat.eqb_spec (line_of t start) (line_of t p)); [contradiction|]. destruct (Nat.eqb_spec (line_of t p) (line_of t b)); [|contradiction]. cbn [negb].
  unfold split_brace_after, split_brace. rewrite Ei. reflexivity.
Qed.
Theorem C94_text_before_brace_refuted : forall w debug t tok_end kind fuel start p b,
  (N.of_nat (length t) < 2 ^ w - 1)%N -> solid t start -> S p < b -> b <= length t -> line_of t start <> line_of t p -> line_of t p = line_of t b ->
  exists ind, leading t start ind /\
    restyled w debug t tok_end kind fuel [for_node start p b] (firstn (S p) t ++ (NL :: ind) ++ skipn b t) /\
    (forall i, S p <= i < b -> solid t i -> length (squeeze (firstn (S p) t ++ (NL :: ind) ++ skipn b t)) < length (squeeze t)).
Proof.
  intros w debug t tok_end kind fuel start p b Hw Ss L B Ne Eq.
  destruct (for_split w debug t tok_end kind fuel start p b Ss Ne Eq) as (ind & Li & E). exists ind. split; [exact Li|].
  split; [eapply restyled_replace; eauto|]. intros i Hi (c & Ec & Wc).
  assert (Et : t = firstn (S p) t ++ firstn (b - S p) (skipn (S p) t) ++ skipn b t).
  { rewrite <- (firstn_skipn (S p) t) at 1. f_equal. rewrite <- (firstn_skipn (b - S p) (skipn (S p) t)) at 1. f_equal. rewrite skipn_skipn'. f_equal. lia. }
  assert (Sq : squeeze t = squeeze (firstn (S p) t) ++ squeeze (firstn (b - S p) (skipn (S p) t)) ++ squeeze (skipn b t)).
  { rewrite <- !squeeze_app. now f_equal. }
  rewrite Sq, !squeeze_app, !app_length.
  assert (squeeze (NL :: ind) = []) as ->. { apply squeeze_white. destruct Li as (ls & _ & _ & Wi & _). intros d [<-|Hd]; [reflexivity|auto]. }
  assert (In c (squeeze (firstn (b - S p) (skipn (S p) t)))).
  { unfold squeeze. apply filter_In. split; [|now rewrite Wc]. apply (nth_error_In _ (i - S p)).
    transitivity (nth_error (skipn (S p) t) (i - S p)).
    - assert (G : i - S p < b - S p) by lia. revert G. generalize (skipn (S p) t) (b - S p) (i - S p). clear.
      intros l n m Hm. revert n m Hm. induction l as [|y l IH]; intros [|n] [|m] Hm; cbn; try lia; try reflexivity. apply IH. lia.
    - rewrite nth_skipn. now replace (S p + (i - S p)) with i by lia. }
  destruct (squeeze (firstn (b - S p) (skipn (S p) t))); [destruct H|]. cbn. lia.
Qed.
Print Assumptions C94_text_before_brace_refuted.
(** Refuted: a multi-line `for' whose brace follows the parenthesis immediately loses the brace. *)
Theorem C94_adjacent_brace_refuted : forall w debug t tok_end kind fuel start p,
  (N.of_nat (length t) < 2 ^ w - 1)%N -> solid t start -> S p < length t -> line_of t start <> line_of t p -> line_of t p = line_of t (S p) ->
  exists ind, leading t start ind /\ restyled w debug t tok_end kind fuel [for_node start p (S p)] (firstn (S p) t ++ (NL :: ind) ++ skipn (S (S p)) t).
Proof.
  intros w debug t tok_end kind fuel start p Hw Ss L Ne Eq.
  destruct (for_split w debug t tok_end kind fuel start p (S p) Ss Ne Eq) as (ind & Li & E). exists ind. split; [exact Li|].
  eexists _, []. split; [exact E|]. intros sorted Hs.
  assert (X := proj1 (C89_empty_range_refuted N w debug t (S p) (NL :: ind) L Hw)). unfold replace in *. cbn [app] in *. rewrite (sorted_one _ _ Hs). exact X.
Qed.
Print Assumptions C94_adjacent_brace_refuted.
(** Refuted: a function whose empty body {} is on a line of its own, not in the first column, loses the closing brace. *)
Definition plain_func (start tb te name b rb : nat) (empty : bool) : node :=
  NFunc (Func true start None (Some (b, Some (rb, empty))) None (Some (tb, te)) name).
Theorem C94_empty_braces_refuted : forall w debug t tok_end kind fuel start tb te name b,
  (N.of_nat (length t) < 2 ^ w - 1)%N -> solid t b -> tok_end b = S b -> solid t (S b) ->
  col_of t tb <> 1 -> col_of t name <> 1 -> line_of t te <> line_of t b ->
  restyled w debug t tok_end kind fuel [plain_func start tb te name b (S b) true] (firstn (S b) t ++ skipn (S (S b)) t).
Proof.
  intros w debug t tok_end kind fuel start tb te name b Hw Sb Tb Sr C1 C2 Ne. pose proof (solid_lt t (S b) Sr) as L.
  exists (remove w [] (N.of_nat (S b)) (N.of_nat (S b))), [start]. split.
  - unfold plain_func. cbn [visit_all visit visit_func f_main negb existsb f_operator bind f_body f_ctor f_type f_start f_name].
    destruct (Nat.eqb_spec (col_of t tb) 1); [contradiction|]. destruct (Nat.eqb_spec (col_of t name) 1); [contradiction|]. cbn [orb].
    unfold fix_empty. cbn [negb]. unfold empty_between. rewrite (skip_token_ok debug t tok_end kind b Sb). cbn [bind]. rewrite Tb.
    rewrite (skip_white_ok t tok_end kind (S b) (S b)) by (auto; intros i c Hi; lia). cbn [bind]. rewrite Nat.eqb_refl. cbn [negb].
    destruct (Nat.eqb_spec (line_of t te) (line_of t b)); [contradiction|]. cbn [bind]. rewrite andb_false_r. reflexivity.
  - intros sorted Hs. assert (X := proj2 (C89_empty_range_refuted N w debug t (S b) [] L Hw)). unfold remove in *. cbn [app] in *. rewrite (sorted_one _ _ Hs). exact X.
Qed.
Print Assumptions C94_empty_braces_refuted.

(** Three concrete sources. *)
From Coq Require Import String Ascii.
Notation length := List.length (only parsing).
Local Open Scope string_scope. Local Open Scope list_scope.
Definition str (s : string) : text := map N_of_ascii (list_ascii_of_string s).
Infix "+++" := String.append (right associativity, at level 60).
Definition nl : string := String (ascii_of_nat 10) EmptyString.
(** A lexer for the examples: words, comments, single characters. *)
Definition word (c : N) : bool := ((97 <=? c) && (c <=? 122) || (65 <=? c) && (c <=? 90) || (48 <=? c) && (c <=? 57) || (c =? 95))%N.
Fixpoint run_of (f : N -> bool) (l : text) : nat := match l with c :: r => if f c then S (run_of f r) else 0 | [] => 0 end.
Fixpoint to_close (l : text) : nat := match l with 42%N :: 47%N :: _ => 2 | _ :: r => S (to_close r) | [] => 0 end.
Definition demo_end (t : text) (i : nat) : nat :=
  match skipn i t with
  | 47%N :: 42%N :: r => i + 2 + to_close r
  | c :: r => if word c then i + 1 + run_of word r else S i
  | [] => i
  end.
Definition demo_kind (t : text) (i : nat) : tk :=
  match skipn i t with
  | 47%N :: 42%N :: _ => KComment
  | 44%N :: _ => KComma | 41%N :: _ => KRParen | 35%N :: _ => KHash
  | _ => KOther
  end.
Fixpoint put_op (op : operation N) (l : list (operation N)) : list (operation N) :=
  match l with [] => [op] | x :: r => if (op_offset op <=? op_offset x)%N then op :: l else x :: put_op op r end.
Definition demo_run (t : text) (ns : list node) : outcome (text * list (operation N)) :=
  do (o, _) <- visit_all 64 true t (demo_end t) (demo_kind t) (S (length t)) ([], []) ns; emit 64 true t (fold_right put_op [] o).
Definition find (t : text) (s : string) : nat :=
  (fix go (l : text) (i : nat) := if list_eq_dec N.eq_dec (firstn (length (str s)) l) (str s) then i else match l with [] => i | _ :: r => go r (S i) end) t 0.
Lemma demo_restyled t ns op seen out : visit_all 64 true t (demo_end t) (demo_kind t) (S (length t)) ([], []) ns = Ok ([op], seen) ->
  emit 64 true t [op] = Ok (out, []) -> restyled 64 true t (demo_end t) (demo_kind t) (S (length t)) ns out.
Proof. intros E1 E2. exists [op], seen. split; [exact E1|]. intros sorted Hs. now rewrite (sorted_one _ _ Hs). Qed.

(** Refuted: of two initializers on the last line of a constructor, the second is deleted. *)
Definition ctor_src : text := str ("A::A(int x)" +++ nl +++ " : a_(x), b_(1) {" +++ nl +++ "  go();" +++ nl +++ "}" +++ nl).
Definition ctor_node (t : text) : node :=
  NFunc (Func true 0 None (Some (find t "{", Some (find t "}", false)))
              (Some [Some (find t "), b_"); Some (find t ") {")]) (Some (0, find t (")" +++ nl))) 3).
Theorem C94_initializers_refuted :
  restyled 64 true ctor_src (demo_end ctor_src) (demo_kind ctor_src) (S (length ctor_src)) [ctor_node ctor_src]
    (str ("A::A(int x)" +++ nl +++ " : a_(x)" +++ nl +++ "{" +++ nl +++ "  go();" +++ nl +++ "}" +++ nl)).
Proof. eapply demo_restyled; [vm_compute; reflexivity|vm_compute; reflexivity]. Qed.
Print Assumptions C94_initializers_refuted.
(** Refuted: when clang does not give the end of the condition, the closing parenthesis is looked for in the bytes
    before the brace, comments included; the end of the comment is deleted. *)
Definition smile_src : text := str ("if (A" +++ nl +++ "    B) /* :) */ {" +++ nl +++ "}" +++ nl).
Theorem C94_parenthesis_in_comment_refuted :
  restyled 64 true smile_src (demo_end smile_src) (demo_kind smile_src) (S (length smile_src))
    [NCond (Cond true 0 true (find smile_src "{") None)]
    (str ("if (A" +++ nl +++ "    B) /* :)" +++ nl +++ "{" +++ nl +++ "}" +++ nl)).
Proof. eapply demo_restyled; [vm_compute; reflexivity|vm_compute; reflexivity]. Qed.
Print Assumptions C94_parenthesis_in_comment_refuted.

(** A neat source with five nodes: a function in the first column, a multi-line `for' and `if' in it, a comma-first
    constructor with the brace on the last line, an operator, and a literal that stays as it is. *)
Definition neat_src : text := str (
  "int f(int a," +++ nl +++ "      int b) {" +++ nl +++
  "  for (;" +++ nl +++ "       ;) {" +++ nl +++ "    g('a  ) {');" +++ nl +++ "  }" +++ nl +++
  "  if (a /* x */" +++ nl +++ "      /* y */ ) {" +++ nl +++ "  }" +++ nl +++ "}" +++ nl +++
  "A::A()" +++ nl +++ " : a_(1)" +++ nl +++ " , b_(2) {" +++ nl +++ "}" +++ nl +++
  " bool operator==(A a)" +++ nl +++ " {" +++ nl +++ " }" +++ nl).
Definition at_ (s : string) (k : nat) : nat := find neat_src s + k.
Definition neat_nodes : list node := Eval vm_compute in [
  NFunc (Func true 0 None (Some (at_ "b) {" 3, Some (at_ ("}" +++ nl +++ "A::") 0, false))) None (Some (0, at_ "b) {" 1)) 4);
  NFor (Cond true (at_ "for" 0) true (at_ ";) {" 3) None) (at_ ";) {" 1);
  NCond (Cond true (at_ "if" 0) true (at_ "y */ ) {" 7) (Some (at_ "(a /*" 1)));
  NFunc (Func true (at_ "A::A" 0) None (Some (at_ "(2) {" 4, Some (at_ "(2) {" 6, true))) (Some [Some (at_ "_(1)" 3); Some (at_ "_(2)" 3)])
              (Some (at_ "A::A" 0, at_ "A::A()" 5)) (at_ "A::A" 3));
  NFunc (Func true (at_ "bool" 0) (Some (at_ "==(" 0)) (Some (at_ "A a)" 6, Some (at_ "A a)" 9, true))) None (Some (at_ "bool" 0, at_ "A a)" 3)) (at_ "operator" 0))].
Definition neat_out : text := str (
  "int f(int a," +++ nl +++ "      int b)" +++ nl +++ "{" +++ nl +++
  "  for (;" +++ nl +++ "       ;)" +++ nl +++ "  {" +++ nl +++ "    g('a  ) {');" +++ nl +++ "  }" +++ nl +++
  "  if (a /* x */" +++ nl +++ "      /* y */ )" +++ nl +++ "  {" +++ nl +++ "  }" +++ nl +++ "}" +++ nl +++
  "A::A()" +++ nl +++ " : a_(1)," +++ nl +++ "   b_(2)" +++ nl +++ "{" +++ nl +++ "}" +++ nl +++
  " bool operator ==(A a)" +++ nl +++ " {}" +++ nl).

Lemma blank_b t a b : forallb white (firstn (b - a) (skipn a t)) = true -> blank_between t a b.
Proof.
  intros H i c Hi E. rewrite forallb_forall in H. apply H. apply (nth_error_In _ (i - a)).
  transitivity (nth_error (skipn a t) (i - a)).
  - assert (G : i - a < b - a) by lia. revert G. generalize (skipn a t) (b - a) (i - a). clear.
    intros l n m Hm. revert n m Hm. induction l as [|y l IH]; intros [|n] [|m] Hm; cbn; try lia; try reflexivity. apply IH. lia.
  - rewrite nth_skipn. now replace (a + (i - a)) with i by lia.
Qed.
Lemma solid_b t i : (match nth_error t i with Some c => negb (white c) | None => false end) = true -> solid t i.
Proof. intros H. destruct (nth_error t i) as [c|] eqn:E; [|discriminate]. exists c. split; [exact E|]. now apply negb_true_iff in H. Qed.
Lemma char_b t i d : nth_error t i = Some d -> is_char t i (fun c => c = d).
Proof. intros H. now exists d. Qed.
Lemma leb_le' a b : (a <=? b)%nat = true -> (a <= b)%nat. Proof. apply Nat.leb_le. Qed.
Lemma ltb_lt' a b : (a <? b)%nat = true -> (a < b)%nat. Proof. apply Nat.ltb_lt. Qed.
Ltac num := first [apply leb_le'; vm_compute; reflexivity | apply ltb_lt'; vm_compute; reflexivity].
Ltac here := apply reaches_here; [num|apply blank_b; vm_compute; reflexivity|apply solid_b; vm_compute; reflexivity|vm_compute; discriminate].
Ltac skip k := apply (reaches_comment _ _ _ _ k); [num|apply blank_b; vm_compute; reflexivity|apply solid_b; vm_compute; reflexivity|vm_compute; reflexivity|split; num|].
Ltac ch := apply char_b; vm_compute; reflexivity.
Example C94_nonvacuous :
  Forall (neat neat_src (demo_end neat_src) (demo_kind neat_src)) neat_nodes /\ distinct neat_nodes /\
  untouched neat_src neat_nodes (at_ "'a  " 0) (at_ "{')" 2) /\
  demo_run neat_src neat_nodes = Ok (neat_out, []).
Proof.
  split; [|split; [|split]].
  - unfold neat_nodes. constructor; [|constructor; [|constructor; [|constructor; [|constructor; [|constructor]]]]].
    + intros _. split; [intros e X; discriminate X|]. intros b br [= <- <-]. split; [apply solid_b; vm_compute; reflexivity|]. split; [intros i X; discriminate X|].
      intros tb te [= <- <-]. split; [num|]. split; [intros rb X; discriminate X|]. intros _. exists 25.
      apply leads_token; [apply solid_b; vm_compute; reflexivity|num|]. change (demo_end neat_src 24) with 25.
      apply leads_here; [num|apply blank_b; vm_compute; reflexivity|apply solid_b; vm_compute; reflexivity].
    + intros _ _. split; [num|]. split; [ch|]. split; [num|]. split; [apply blank_b; vm_compute; reflexivity|ch].
    + intros _ _. exists 100. split; [num|]. split; [split; [ch|]; split; [num|]; split; [apply blank_b; vm_compute; reflexivity|ch]|].
      split; [apply solid_b; vm_compute; reflexivity|]. split; [num|]. exists 100. split; [|left; split; reflexivity].
      change (demo_end neat_src 76) with 77. skip 78. change (demo_end neat_src 78) with 85. skip 92. change (demo_end neat_src 92) with 99. here.
    + intros _. split; [intros e X; discriminate X|]. intros b br [= <- <-]. split; [apply solid_b; vm_compute; reflexivity|]. split.
      * intros i [= <-] r [X|[X|[]]]; injection X as <-.
        -- split; [exists 41%N; auto|]. exists 127. split; [here|]. intros _. split; [ch|]. right. apply blank_b. vm_compute. reflexivity.
        -- split; [exists 41%N; auto|]. exists 135. split; [here|]. intros X. discriminate X.
      * intros tb te [= <- <-]. split; [num|]. exists 133. split; [|split].
        -- right. split; [right; now left|]. split; [num|]. intros r [X|[X|[]]]; injection X as <-; [right; num|now left].
        -- intros rb [= <-]. split; [apply solid_b; vm_compute; reflexivity|]. split; [num|]. split; [reflexivity|]. left. num.
        -- intros _ _. split; [num|]. apply blank_b. vm_compute. reflexivity.
    + intros _. split; [intros e [= <-]; split; [split; num|reflexivity]|]. intros b br [= <- <-]. split; [apply solid_b; vm_compute; reflexivity|].
      split; [intros i X; discriminate X|]. intros tb te [= <- <-]. split; [num|]. split; [|intros X; discriminate X].
      intros rb [= <-]. split; [apply solid_b; vm_compute; reflexivity|]. split; [num|]. split; [reflexivity|]. left. num.
  - unfold neat_nodes. split.
    + repeat (constructor; [cbn [places f_operator f_body f_ctor flat_map app]; repeat constructor; cbn; intuition discriminate|]). constructor.
    + repeat (constructor; [repeat (constructor; [right; intros i Hi Hj; cbn in Hi, Hj; lia|]); constructor|]). constructor.
  - split; [num|]. split; [exists 39%N; split; [vm_compute; reflexivity|split; [reflexivity|discriminate]]|]. split; [apply solid_b; vm_compute; reflexivity|].
    change (at_ "'a  " 0)%nat with 55. change (at_ "{')" 2)%nat with 63.
    intros n i [<-|[<-|[<-|[<-|[<-|[]]]]]] Hi; cbn in Hi; lia.
  - vm_compute. reflexivity.
Qed.

(** * C95 *)
(** Neat sources: no assertion fails, nothing outside the text is read, no loop runs for ever (the fuel of the model's loops
    does not matter), and emit() uses up every edit.  Partial: see the refutations. *)
Theorem C95_returns_partial : forall w debug t tok_end kind ns,
  (N.of_nat (length t) < 2 ^ w - 1)%N -> Forall (neat t tok_end kind) ns -> distinct ns ->
  exists o seen, forall fuel, (length t < fuel)%nat -> visit_all w debug t tok_end kind fuel ([], []) ns = Ok (o, seen) /\
    (NoDup (map offset o) /\ Forall (inside t) o) /\ forall sorted, sorted_by_offset o sorted -> exists out, emit w debug t sorted = Ok (out, []).
Proof.
  intros w debug t tok_end kind ns Hw HN HD.
  destruct (visit_all_ok w debug t tok_end kind Hw (S (length t)) ns (Nat.lt_succ_diag_r _) HN HD [] [] []) as (es & seen & E & F & ND & _); [intros f []|intros n m []|].
  exists (all_ops es), seen. intros fuel Hf.
  destruct (all_ops_inside t tok_end kind es F) as [I1 I2]. pose proof (all_ops_apart t tok_end kind es F ND) as A. split; [|split].
  - exact (visit_all_mono w debug t tok_end kind _ fuel ns Hf _ _ E).
  - split; [|exact I1]. clear - A. induction A as [|x l H1 H2 IH]; cbn; constructor; auto. intros X. apply in_map_iff in X as (y & Ey & Hy). rewrite Forall_forall in H1.
    destruct (H1 y Hy) as (N & _). congruence.
  - intros sorted Hs. eexists. apply C89_edits_applied_partial; eauto.
Qed.
Print Assumptions C95_returns_partial.

(** Refuted: a function in the first column whose brace follows its closing parenthesis immediately, `f(){': a debug build
    fails an assertion, and a release build never returns, whatever the text behind it is. *)
Theorem C95_no_space_before_brace_refuted : forall w debug t tok_end kind fuel start tb te name rb,
  solid t te -> tok_end te = S te -> solid t (S te) -> (forall i, S te <= i <= length t -> i <= tok_end i <= length t)%nat -> (S te < tok_end (S te))%nat ->
  col_of t tb = 1 ->
  visit_all w debug t tok_end kind fuel ([], []) [plain_func start tb te name (S te) rb false]
    = if debug then match fuel with O => Diverge | S _ => Fault AssertFail end else Diverge.
Proof.
  intros w debug t tok_end kind fuel start tb te name rb St Tt Sb Tw Tb Cb.
  assert (El : line_of t (S te) = line_of t te) by now apply line_succ.
  unfold plain_func. cbn [visit_all visit visit_func f_main negb existsb f_operator bind f_body f_ctor f_type f_start f_name].
  rewrite Cb. cbn [Nat.eqb orb fix_empty bind negb andb]. rewrite El, Nat.eqb_refl. cbn [andb].
  assert (F : first_white_before debug t tok_end fuel te (S te) = if debug then match fuel with O => Diverge | S _ => Fault AssertFail end else Diverge).
  { destruct fuel as [|fuel]; [now destruct debug|]. cbn [first_white_before]. rewrite (is_white_solid t tok_end kind te St). cbn [bind].
    rewrite (skip_token_ok debug t tok_end kind te St). cbn [bind]. rewrite Tt, Nat.ltb_irrefl. destruct debug; [reflexivity|]. cbn [assert_ andb bind].
    assert (G : forall f i, (S te < i <= length t)%nat -> first_white_before false t tok_end f i (S te) = Diverge).
    { induction f as [|f IH]; intros i Hi; [reflexivity|]. cbn [first_white_before].
      assert (W : exists b, is_white t i = Ok b).
      { unfold is_white, char_at. destruct (Nat.eqb_spec i (length t)); [eexists; reflexivity|]. destruct (nth_error t i) eqn:E; [eexists; reflexivity|]. apply nth_error_None in E. lia. }
      destruct W as ([|] & W); rewrite W; cbn [bind].
      - unfold skip_white. destruct (Nat.leb_spec i (length t)); [|lia]. cbn [bind]. pose proof (white_run_le (skipn i t)) as R. rewrite skipn_length in R.
        destruct (Nat.eqb_spec (i + white_run (skipn i t)) (S te)); [lia|]. cbn [assert_ andb bind]. apply IH. lia.
      - unfold skip_token. rewrite W. cbn [bind assert_ andb]. apply IH. pose proof (Tw i ltac:(lia)). lia. }
    destruct fuel as [|fuel]; [reflexivity|]. cbn [first_white_before]. rewrite (is_white_solid t tok_end kind (S te) Sb). cbn [bind].
    rewrite (skip_token_ok false t tok_end kind (S te) Sb). cbn [bind assert_ andb]. apply G. pose proof (Tw (S te)). pose proof (solid_lt t (S te) Sb). lia. }
  rewrite F. destruct debug; [destruct fuel|]; reflexivity.
Qed.
Print Assumptions C95_no_space_before_brace_refuted.
(** Refuted: catch (...) dereferences a null pointer, at any place of any file. *)
Theorem C95_catch_all_refuted : forall w debug t tok_end kind fuel st start b e rest,
  visit_all w debug t tok_end kind fuel st (NCatch (Cond true start true b e) None :: rest) = Fault NullDeref.
Proof. reflexivity. Qed.
Print Assumptions C95_catch_all_refuted.
Definition tight_src : text := str ("f(){g();}" +++ nl).
Example C95_nonvacuous : forall fuel,
  visit_all 64 false tight_src (demo_end tight_src) (demo_kind tight_src) fuel ([], []) [plain_func 0 0 2 0 3 8 false] = Diverge.
Proof.
  intros fuel. apply (C95_no_space_before_brace_refuted 64 false tight_src); try reflexivity; try (apply solid_b; reflexivity); [|apply ltb_lt'; reflexivity].
  intros i Hi. do 11 (destruct i as [|i]; [vm_compute; lia|]). cbn in Hi. lia.
Qed.

(** * C96 *)
(** The rule for parentheses that span lines, on a file with one statement: the brace of an if, while, switch, for or catch
    moves to a line of its own, with the leading white space of the line the statement starts on, exactly if the
    statement starts on an earlier or later line than the closing parenthesis and the brace is on the line of the
    parenthesis; otherwise the file does not change. *)
Definition split_if (t : text) (start p a b : nat) (out : text) : Prop :=
  (line_of t start <> line_of t p /\ line_of t p = line_of t b /\ exists ind, leading t start ind /\ out = firstn a t ++ (NL :: ind) ++ skipn b t) \/
  (~ (line_of t start <> line_of t p /\ line_of t p = line_of t b) /\ out = t).
Theorem C96_statement_brace : forall w debug t tok_end kind fuel n start p b,
  (N.of_nat (length t) < 2 ^ w - 1)%N -> (length t < fuel)%nat -> solid t start -> (start < p)%nat -> follows_paren t p b ->
  (exists e, n = NCond (Cond true start true b e) /\ match e with Some e => paren_is t tok_end kind e p True | None => True end) \/
  n = NFor (Cond true start true b None) p \/
  (exists e, n = NCatch (Cond true start true b None) (Some e) /\ paren_is t tok_end kind e p False) ->
  exists out, restyled w debug t tok_end kind fuel [n] out /\ split_if t start p (S p) b out.
Proof.
  intros w debug t tok_end kind fuel n start p b Hw Hf Ss Lp FP Hn. pose proof FP as (Pc & Lb & B & Pb).
  pose proof (solid_lt t b (brace_solid t b Pb)) as LL.
  assert (V : visit_all w debug t tok_end kind fuel ([], []) [n] = do o <- maybe_split_brace w t [] start p b; Ok (o, [])).
  { assert (R : forall o : list (operation N), (do st <- Ok (o, @nil nat); Ok st) = Ok (o, [])) by reflexivity.
    destruct Hn as [(e & -> & He)|[->|(e & -> & He)]]; cbn [visit_all visit].
    - unfold handle_cond. cbn [c_main c_compound negb c_end c_start c_body fst snd].
      assert (X : (do r <- match e with None => Ok None | Some e => rparen_after debug t tok_end kind fuel e end;
        do r <- match r with None => rparen_back t start b | Some p => Ok (Some p) end;
        match r with None => Ok [] | Some p => maybe_split_brace w t [] start p b end) = maybe_split_brace w t [] start p b).
      { destruct e as [e|].
        - destruct (rparen_after_ok w debug t tok_end kind Hw fuel e p _ Hf He) as [E|[E _]]; rewrite E; cbn [bind]; [reflexivity|].
          now rewrite (rparen_back_ok t tok_end kind start p b Lp FP).
        - cbn [bind]. now rewrite (rparen_back_ok t tok_end kind start p b Lp FP). }
      rewrite X. now destruct (maybe_split_brace w t [] start p b).
    - unfold visit_for. cbn [c_main c_compound negb c_end c_start c_body fst snd]. now destruct (maybe_split_brace w t [] start p b).
    - unfold visit_catch. cbn [c_main c_compound negb c_end c_start c_body fst snd bind].
      destruct (rparen_after_ok w debug t tok_end kind Hw fuel e p _ Hf He) as [E|[_ []]]. rewrite E. cbn [bind]. now destruct (maybe_split_brace w t [] start p b). }
  unfold maybe_split_brace in V. unfold split_if. destruct (Nat.eqb_spec (line_of t start) (line_of t p)) as [E1|E1].
  - exists t. split; [eapply restyled_nothing; [exact V|exact Hw]|]. right. tauto.
  - destruct (Nat.eqb_spec (line_of t p) (line_of t b)) as [E2|E2]; cbn [negb] in V.
    + destruct (indent_spec t start Ss) as (ind & Ei & Li). unfold split_brace_after, split_brace in V. rewrite Ei in V. cbn [bind] in V.
      eexists. split; [eapply restyled_replace; [exact V|exact Hw|exact Lb|lia]|]. left. eauto.
    + exists t. split; [eapply restyled_nothing; [exact V|exact Hw]|]. right. tauto.
Qed.
Print Assumptions C96_statement_brace.
(** A statement with no parenthesis between its start and its body (both come from a macro) is left alone, and nothing in front of the
    statement is read. *)
Theorem C96_no_parenthesis : forall w debug t tok_end kind fuel start b e,
  (N.of_nat (length t) < 2 ^ w - 1)%N -> (length t < fuel)%nat -> (start <= b)%nat ->
  (forall i, (start < i <= b)%nat -> exists c, nth_error t i = Some c /\ c <> 41%N) ->
  match e with Some e => solid t e /\ (tok_end e <= length t)%nat /\ exists q, reaches t tok_end kind (tok_end e) q /\ kind q = KHash | None => True end ->
  restyled w debug t tok_end kind fuel [NCond (Cond true start true b e)] t.
Proof.
  intros w debug t tok_end kind fuel start b e Hw Hf L Hc He. eapply restyled_nothing; [|exact Hw].
  cbn [visit_all visit]. unfold handle_cond. cbn [c_main c_compound negb c_end c_start c_body fst snd].
  assert (B : forall k, (start + k <= b)%nat -> rparen_back t start (start + k) = Ok None).
  { induction k as [|k IH]; intros Lk; [rewrite Nat.add_0_r; destruct start; cbn [rparen_back]; now rewrite Nat.eqb_refl|].
    rewrite Nat.add_succ_r in *. cbn [rparen_back]. destruct (Nat.eqb_spec (S (start + k)) start); [lia|].
    destruct (Hc (S (start + k)) ltac:(lia)) as (c & Ec & Nc). rewrite (char_at_some t tok_end kind _ _ Ec). cbn [bind]. destruct (N.eqb_spec c 41); [contradiction|]. apply IH. lia. }
  specialize (B (b - start)%nat ltac:(lia)). replace (start + (b - start))%nat with b in B by lia.
  destruct e as [e|]; [|cbn [bind]; rewrite B; reflexivity].
  destruct He as (He1 & He2 & q & Hq & Kq). assert (P : forall p, paren_is t tok_end kind e p True) by (intros p; split; [exact He1|]; split; [exact He2|]; exists q; auto).
  destruct (rparen_after_ok w debug t tok_end kind Hw fuel e 0 _ Hf (P 0%nat)) as [E|[E _]]; [|rewrite E; cbn [bind]; rewrite B; reflexivity].
  destruct (rparen_after_ok w debug t tok_end kind Hw fuel e 1 _ Hf (P 1%nat)) as [E'|[E' _]]; congruence.
Qed.
Print Assumptions C96_no_parenthesis.
(** The rule for functions (not constructors) with a body that is not empty: the brace moves if the function's name or type
    starts in the first column or the prototype spans lines, and the brace is on the line where the prototype ends. *)
Definition func_split_if (t : text) (tb te name e b : nat) (out : text) : Prop :=
  let wanted := (col_of t tb = 1 \/ col_of t name = 1 \/ line_of t tb <> line_of t te) /\ line_of t te = line_of t b in
  (wanted /\ exists ind, leading t tb ind /\ out = firstn e t ++ (NL :: ind) ++ skipn b t) \/ (~ wanted /\ out = t).
Theorem C96_function_brace : forall w debug t tok_end kind fuel start tb te name b rb e,
  (N.of_nat (length t) < 2 ^ w - 1)%N -> (length t < fuel)%nat -> solid t tb -> solid t b -> (line_of t te = line_of t b -> leads t tok_end te e b) ->
  exists out, restyled w debug t tok_end kind fuel [plain_func start tb te name b rb false] out /\ func_split_if t tb te name e b out.
Proof.
  intros w debug t tok_end kind fuel start tb te name b rb e Hw Hf Sb Sbody HL. pose proof (solid_lt t b Sbody) as LL.
  assert (V : visit_all w debug t tok_end kind fuel ([], []) [plain_func start tb te name b rb false] =
    if ((col_of t tb =? 1) || (col_of t name =? 1) || negb (line_of t tb =? line_of t te))%nat && (line_of t te =? line_of t b)%nat
    then do e <- first_white_before debug t tok_end fuel te b; do o <- split_brace w t [] tb e b; Ok (o, [start]) else Ok ([], [start])).
  { unfold plain_func. cbn [visit_all visit visit_func f_main negb existsb f_operator bind f_body f_ctor f_type f_start f_name].
    unfold fix_empty. destruct ((col_of t tb =? 1)%nat || (col_of t name =? 1)%nat); cbn [negb bind andb orb]; (match goal with |- context [if ?c then _ else _] => destruct c end; [|reflexivity]);
      (destruct (first_white_before _ _ _ _ _ _); [|reflexivity..]; cbn [bind]; now destruct (split_brace _ _ _ _ _ _)). }
  unfold func_split_if. cbn zeta.
  destruct ((col_of t tb =? 1) || (col_of t name =? 1) || negb (line_of t tb =? line_of t te))%nat eqn:C1.
  - destruct (Nat.eqb_spec (line_of t te) (line_of t b)) as [E2|E2]; cbn [andb] in V.
    + specialize (HL E2). destruct (leads_gap t tok_end kind _ _ _ HL) as (G1 & _). rewrite (first_white_ok debug t tok_end kind te e b HL) in V by lia. cbn [bind] in V.
      destruct (indent_spec t tb Sb) as (ind & Ei & Li). unfold split_brace in V. rewrite Ei in V. cbn [bind] in V.
      eexists. split; [eapply restyled_replace; [exact V|exact Hw|exact G1|lia]|]. left. split; [split; [|exact E2]|eauto].
      rewrite !orb_true_iff, negb_true_iff, !Nat.eqb_eq, Nat.eqb_neq in C1. tauto.
    + exists t. split; [eapply restyled_nothing; [exact V|exact Hw]|]. right. split; [tauto|reflexivity].
  - cbn [andb] in V. exists t. split; [eapply restyled_nothing; [exact V|exact Hw]|]. right. split; [|reflexivity].
    rewrite !orb_false_iff, negb_false_iff, Nat.eqb_eq, !Nat.eqb_neq in C1. tauto.
Qed.
Print Assumptions C96_function_brace.
(** The rule for empty functions that do not start in the first column: braces apart, with white space only between them,
    are joined, and the opening brace stays where it is. *)
Lemma restyled_remove w debug t tok_end kind fuel ns seen a b :
  visit_all w debug t tok_end kind fuel ([], []) ns = Ok (remove w [] (N.of_nat a) (N.of_nat b), seen) ->
  (N.of_nat (length t) < 2 ^ w - 1)%N -> (a < b <= length t)%nat -> restyled w debug t tok_end kind fuel ns (firstn a t ++ skipn b t).
Proof.
  intros E Hw L. eexists _, seen. split; [exact E|]. intros sorted Hs. unfold remove in Hs. cbn [app] in Hs. rewrite (usub_exact w t tok_end kind Hw) in Hs by lia.
  rewrite (sorted_one _ _ Hs).
  assert (X : edited [Op Remove (N.of_nat a) (N.of_nat (b - a)) []] 0 t = firstn a t ++ skipn b t).
  { rewrite <- (app_nil_l (skipn b t)), <- (edited_replace t a b []) by lia. generalize 0%nat. clear. induction t as [|c t IH]; intros i; [reflexivity|].
    cbn [edited]. rewrite IH. reflexivity || (f_equal; unfold piece, before, behind, takes_away, offset; cbn; destruct (_ =? _)%nat; reflexivity). }
  rewrite <- X. apply C89_edits_applied_partial; auto.
  - split; [apply Permutation_refl|]. intros i j p q Hij Hp Hq. destruct j as [|[|j]]; try discriminate. lia.
  - repeat constructor.
  - constructor; [|constructor]. split; unfold offset; cbn; rewrite ?Nat2N.id; [lia|]. intros _. lia.
  - constructor; [|constructor]. intros _. cbn. lia.
Qed.
Theorem C96_empty_function : forall w debug t tok_end kind fuel start tb te name b rb,
  (N.of_nat (length t) < 2 ^ w - 1)%N -> solid t b -> tok_end b = S b -> (S b < rb)%nat -> blank_between t (S b) rb -> solid t rb ->
  col_of t tb <> 1 -> col_of t name <> 1 -> line_of t te <> line_of t b \/ line_of t b <> line_of t rb ->
  restyled w debug t tok_end kind fuel [plain_func start tb te name b rb true] (firstn (S b) t ++ skipn rb t).
Proof.
  intros w debug t tok_end kind fuel start tb te name b rb Hw Sb Tb L B Sr C1 C2 Ne. pose proof (solid_lt t rb Sr) as Lr.
  apply (restyled_remove w debug t tok_end kind fuel _ [start] (S b) rb); [|exact Hw|lia].
  unfold plain_func. cbn [visit_all visit visit_func f_main negb existsb f_operator bind f_body f_ctor f_type f_start f_name].
  destruct (Nat.eqb_spec (col_of t tb) 1); [contradiction|]. destruct (Nat.eqb_spec (col_of t name) 1); [contradiction|]. cbn [orb].
  unfold fix_empty. cbn [negb]. unfold empty_between. rewrite (skip_token_ok debug t tok_end kind b Sb). cbn [bind]. rewrite Tb.
  rewrite (skip_white_ok t tok_end kind (S b) rb) by (auto; lia). cbn [bind]. rewrite Nat.eqb_refl. cbn [negb].
  destruct (Nat.eqb_spec (line_of t te) (line_of t b)) as [E|E].
  - destruct (Nat.eqb_spec (line_of t b) (line_of t rb)) as [E2|E2]; [destruct Ne; contradiction|]. cbn [bind negb andb]. reflexivity.
  - cbn [bind]. rewrite andb_false_r. reflexivity.
Qed.
Print Assumptions C96_empty_function.
Definition while_src : text := str ("  while (a" +++ nl +++ "         && b) {" +++ nl +++ "  }" +++ nl).
Definition member_src : text := str ("  A f()" +++ nl +++ "  {" +++ nl +++ "  }" +++ nl).
Example C96_nonvacuous :
  solid while_src 2 /\ follows_paren while_src 24 26 /\ paren_is while_src (demo_end while_src) (demo_kind while_src) 23 24 True /\
  restyled 64 true while_src (demo_end while_src) (demo_kind while_src) (S (length while_src)) [NCond (Cond true 2 true 26 (Some 23))]
    (str ("  while (a" +++ nl +++ "         && b)" +++ nl +++ "  {" +++ nl +++ "  }" +++ nl)) /\
  restyled 64 true neat_src (demo_end neat_src) (demo_kind neat_src) (S (length neat_src)) [plain_func 0 0 24 4 26 108 false]
    (firstn 25 neat_src ++ str nl ++ skipn 26 neat_src) /\ leads neat_src (demo_end neat_src) 24 25 26 /\
  (forall kind fuel, restyled 64 true member_src (demo_end member_src) kind fuel [plain_func 2 2 6 4 10 14 true] (str ("  A f()" +++ nl +++ "  {}" +++ nl))).
Proof.
  split; [apply solid_b; reflexivity|]. split; [split; [ch|]; split; [num|]; split; [apply blank_b; reflexivity|ch]|].
  split; [split; [apply solid_b; reflexivity|]; split; [num|]; exists 24%nat; split; [here|left; split; reflexivity]|].
  split; [eapply demo_restyled; [vm_compute; reflexivity|vm_compute; reflexivity]|]. split; [eapply demo_restyled; [vm_compute; reflexivity|vm_compute; reflexivity]|]. split.
  - apply leads_token; [apply solid_b; vm_compute; reflexivity|num|]. change (demo_end neat_src 24) with 25%nat.
    apply leads_here; [num|apply blank_b; vm_compute; reflexivity|apply solid_b; vm_compute; reflexivity].
  - intros kind fuel. change (str ("  A f()" +++ nl +++ "  {}" +++ nl)) with (firstn 11 member_src ++ skipn 14 member_src).
    apply C96_empty_function; try reflexivity; try (apply solid_b; reflexivity); try num; try (vm_compute; discriminate); [apply blank_b; reflexivity|].
    left. vm_compute. discriminate.
Qed.

Lemma col_from_first : forall (t : text) i col, i <= length t -> 1 <= col ->
  1 <= col_from t i col /\ (col_from t i col = 1 <-> i = 0 /\ col = 1 \/ 0 < i /\ nth_error t (i - 1) = Some 10%N).
Proof.
  induction t as [|c t IH]; intros [|i] col Hi Hc; cbn [col_from length] in *; try (exfalso; lia).
  - split; [lia|]. split; [intros ->; auto|intros [[_ H]|[H _]]; lia].
  - split; [lia|]. split; [intros ->; auto|intros [[_ H]|[H _]]; lia].
  - change NL with 10%N. replace (S i - 1) with i by lia.
    assert (E : forall col', 1 <= col' -> (0 < i -> (col_from t i col' = 1 <-> nth_error (c :: t) i = Some 10%N))).
    { intros col' Hc' Hi0. destruct (IH i col' ltac:(lia) Hc') as [_ H2]. rewrite H2. destruct i as [|i]; [lia|]. cbn [nth_error].
      replace (S i - 1) with i by lia. split; [intros [[? _]|[_ ?]]; [lia|assumption]|]. intros Q. right. split; [lia|exact Q]. }
    destruct (N.eqb_spec c 10) as [->|Hne].
    + destruct (IH i 1 ltac:(lia) ltac:(lia)) as [H1 H2]. split; [exact H1|]. destruct i as [|i].
      * split; [intros _; right; split; [lia|reflexivity]|intros _; apply H2; auto].
      * rewrite (E 1) by lia. split; [intros Q; right; split; [lia|exact Q]|intros [[? _]|[_ Q]]; [lia|exact Q]].
    + destruct (IH i (S col) ltac:(lia) ltac:(lia)) as [H1 H2]. split; [exact H1|]. destruct i as [|i].
      * rewrite H2. split; [intros [[_ ?]|[? _]]; lia|intros [[? _]|[_ [= ?]]]; [lia|congruence]].
      * rewrite (E (S col)) by lia. split; [intros Q; right; split; [lia|exact Q]|intros [[? _]|[_ Q]]; [lia|exact Q]].
Qed.
(** The rules speak of the first column and of lines: position [i] is in the first column exactly when it is the first of the
    file or follows a line break, ... *)
Theorem C96_first_column_meaning : forall (t : text) i, i <= length t ->
  (col_of t i = 1 <-> i = 0 \/ nth_error t (i - 1) = Some 10%N).
Proof.
  intros t i Hi. unfold col_of. destruct (col_from_first t i 1 Hi ltac:(lia)) as [_ H]. rewrite H.
  split; [intros [[? _]|[_ ?]]; auto|]. destruct i as [|i]; [auto|]. intros [?|?]; [lia|]. right. split; [lia|assumption].
Qed.
(** ... and two positions are on the same line exactly when there is no line break between them. *)
Theorem C96_same_line_meaning : forall (t : text) a b, a <= b <= length t ->
  (line_of t a = line_of t b <-> forall i, a <= i < b -> nth_error t i <> Some 10%N).
Proof.
  intros t a b H. unfold line_of. change NL with 10%N.
  assert (E : forall (t : text) a b, a <= b ->
    count_occ N.eq_dec (firstn b t) 10%N = count_occ N.eq_dec (firstn a t) 10%N + count_occ N.eq_dec (firstn (b - a) (skipn a t)) 10%N).
  { clear. induction t as [|c t IH]; intros [|a] [|b] Hab; try lia; try (cbn; reflexivity).
    - cbn. now rewrite firstn_nil.
    - replace (S b - S a) with (b - a) by lia. cbn [firstn skipn count_occ]. destruct (N.eq_dec c 10); rewrite (IH a b) by lia; lia. }
  assert (G : forall (t : text) a n k, k < n -> nth_error (firstn n (skipn a t)) k = nth_error t (a + k)).
  { clear. intros t a. revert t. induction a as [|a IH]; intros t n k Hk.
    - cbn [skipn plus]. revert n k Hk. induction t as [|c t IHt]; intros [|n] [|k] Hk; cbn; try lia; auto. apply IHt. lia.
    - destruct t as [|c t]; [cbn; rewrite firstn_nil; now destruct k|]. cbn [skipn plus nth_error]. now apply IH. }
  rewrite (E t a b) by lia. split.
  - intros Q i Hi Hn. assert (Z : count_occ N.eq_dec (firstn (b - a) (skipn a t)) 10%N = 0) by lia.
    apply count_occ_not_In in Z. apply Z. apply nth_error_In with (n := i - a). rewrite G by lia. now replace (a + (i - a)) with i by lia.
  - intros Q. assert (Z : ~ In 10%N (firstn (b - a) (skipn a t))).
    { intros HIn. apply In_nth_error in HIn as (k & Hk).
      assert (Hkl : k < length (firstn (b - a) (skipn a t))) by (apply nth_error_Some; congruence).
      rewrite firstn_length in Hkl. rewrite G in Hk by lia. apply (Q (a + k)); [lia|exact Hk]. }
    apply (count_occ_not_In N.eq_dec) in Z. lia.
Qed.
Print Assumptions C96_first_column_meaning.
Print Assumptions C96_same_line_meaning.

(** * C97 *)
(** Running the restyler on a file whose brace it has just split changes nothing any more: statements, and functions with a
    body that is not empty.  The nodes of the new file: what is before the brace has not moved, the brace is behind the
    inserted line break and indentation.  Partial: see the refutation for empty functions. *)
Lemma line_prefix t u k : (k <= length t)%nat -> line_of (firstn k t ++ u) k = line_of t k.
Proof. intros L. unfold line_of. f_equal. f_equal. rewrite firstn_app, firstn_length, Nat.min_l, Nat.sub_diag by lia. cbn. now rewrite app_nil_r, firstn_firstn, Nat.min_id. Qed.
Lemma line_prefix' t u k i : (i <= k <= length t)%nat -> line_of (firstn k t ++ u) i = line_of t i.
Proof.
  intros L. unfold line_of. f_equal. f_equal. rewrite firstn_app, firstn_length, Nat.min_l by lia. replace (i - k)%nat with 0%nat by lia. cbn. rewrite app_nil_r, firstn_firstn. now rewrite Nat.min_l by lia.
Qed.
Lemma line_mono t i j : (i <= j)%nat -> (line_of t i <= line_of t j)%nat.
Proof.
  intros L. unfold line_of. apply le_n_S. replace j with (i + (j - i))%nat by lia. generalize (j - i)%nat. intros k. revert t. clear. induction i as [|i IH]; intros t; cbn; [lia|].
  destruct t as [|c t]; cbn; [lia|]. specialize (IH t). destruct (N.eq_dec c NL); lia.
Qed.
Lemma line_later t k ind u i : (k <= length t)%nat -> (i <= k)%nat -> (line_of (firstn k t ++ (NL :: ind) ++ u) i < line_of (firstn k t ++ (NL :: ind) ++ u) (k + S (length ind)))%nat.
Proof.
  intros L Li. apply Nat.le_lt_trans with (m := line_of (firstn k t ++ (NL :: ind) ++ u) k); [now apply line_mono|].
  apply Nat.lt_le_trans with (m := line_of (firstn k t ++ (NL :: ind) ++ u) (S k)); [|apply line_mono; lia].
  rewrite line_prefix by exact L. unfold line_of. apply -> Nat.succ_lt_mono.
  rewrite firstn_app, firstn_length, Nat.min_l by lia. replace (S k - k)%nat with 1%nat by lia. rewrite firstn_firstn, Nat.min_r by lia. cbn [firstn app].
  rewrite count_occ_app. cbn [count_occ]. destruct (N.eq_dec NL NL); [lia|contradiction].
Qed.
Lemma split_shape (t : text) a b ind : (a <= length t)%nat ->
  let out := firstn a t ++ (NL :: ind) ++ skipn b t in skipn (a + S (length ind)) out = skipn b t /\ firstn a out = firstn a t.
Proof.
  intros L out. subst out. rewrite app_assoc. split.
  - rewrite skipn_app. replace (length (firstn a t ++ NL :: ind)) with (a + S (length ind))%nat by (rewrite app_length, firstn_length; cbn [length]; lia).
    rewrite Nat.sub_diag. rewrite skipn_all2; [reflexivity|]. rewrite app_length, firstn_length. cbn [length]. lia.
  - rewrite <- app_assoc, firstn_app, firstn_length, Nat.min_l, Nat.sub_diag by lia. cbn. now rewrite app_nil_r, firstn_firstn, Nat.min_id.
Qed.
Theorem C97_statement_partial : forall w debug t tok_end kind fuel start p b tok_end' kind',
  (N.of_nat (length t + length t) < 2 ^ w - 1)%N -> (length t < fuel)%nat -> solid t start -> (start < p)%nat -> follows_paren t p b ->
  exists out b', restyled w debug t tok_end kind fuel [for_node start p b] out /\
    firstn (S p) out = firstn (S p) t /\ skipn b' out = skipn b t /\
    restyled w debug out tok_end' kind' fuel [for_node start p b'] out.
Proof.
  intros w debug t tok_end kind fuel start p b tok_end' kind' Hw Hf Ss Lp FP. pose proof FP as (Pc & Lb & B & Pb).
  pose proof (solid_lt t b (brace_solid t b Pb)) as LL.
  destruct (C96_statement_brace w debug t tok_end kind fuel (for_node start p b) start p b) as (out & R & [(E1 & E2 & ind & Li & ->)|(Nw & ->)]);
    [lia|exact Hf|exact Ss|exact Lp|exact FP|right; now left| |].
  - exists (firstn (S p) t ++ (NL :: ind) ++ skipn b t), (S p + S (length ind))%nat. split; [exact R|].
    destruct (split_shape t (S p) b ind ltac:(lia)) as [S1 S2]. split; [exact S2|]. split; [exact S1|].
    set (out := firstn (S p) t ++ (NL :: ind) ++ skipn b t). apply (restyled_nothing w debug out tok_end' kind' fuel _ []).
    + unfold for_node. cbn [visit_all visit visit_for c_main c_compound c_body c_start negb fst snd]. unfold maybe_split_brace.
      destruct (_ =? _)%nat; [reflexivity|]. pose proof (line_later t (S p) ind (skipn b t) p ltac:(lia) ltac:(lia)) as G. fold out in G.
      destruct (Nat.eqb_spec (line_of out p) (line_of out (S p + S (length ind)))); [lia|]. reflexivity.
    + subst out. rewrite !app_length, firstn_length, skipn_length. cbn [length]. destruct Li as (ls & _ & _ & _ & _ & Li). pose proof (solid_lt t start Ss). lia.
  - exists t, b. split; [exact R|]. split; [reflexivity|]. split; [reflexivity|]. apply (restyled_nothing w debug t tok_end' kind' fuel _ []); [|lia].
    unfold for_node. cbn [visit_all visit visit_for c_main c_compound c_body c_start negb fst snd]. unfold maybe_split_brace.
    destruct (Nat.eqb_spec (line_of t start) (line_of t p)); [reflexivity|]. destruct (Nat.eqb_spec (line_of t p) (line_of t b)); [tauto|reflexivity].
Qed.
Print Assumptions C97_statement_partial.
Theorem C97_function_partial : forall w debug t tok_end kind fuel start tb te name b rb e tok_end' kind' rb',
  (N.of_nat (length t + length t) < 2 ^ w - 1)%N -> (length t < fuel)%nat -> solid t tb -> (tb <= te)%nat -> (name <= te)%nat -> solid t b ->
  (line_of t te = line_of t b -> leads t tok_end te e b) ->
  exists out b', restyled w debug t tok_end kind fuel [plain_func start tb te name b rb false] out /\
    firstn te out = firstn te t /\ skipn b' out = skipn b t /\
    restyled w debug out tok_end' kind' fuel [plain_func start tb te name b' rb' false] out.
Proof.
  intros w debug t tok_end kind fuel start tb te name b rb e tok_end' kind' rb' Hw Hf Sb Ltb Lname Sbody HL. pose proof (solid_lt t b Sbody) as LL.
  assert (Still : forall out b', (N.of_nat (length out) < 2 ^ w - 1)%N -> line_of out te <> line_of out b' \/ ~ (col_of out tb = 1 \/ col_of out name = 1 \/ line_of out tb <> line_of out te) ->
    restyled w debug out tok_end' kind' fuel [plain_func start tb te name b' rb' false] out).
  { intros out b' Ho H. apply (restyled_nothing w debug out tok_end' kind' fuel _ [start]); [|exact Ho].
    unfold plain_func. cbn [visit_all visit visit_func f_main negb existsb f_operator bind f_body f_ctor f_type f_start f_name]. unfold fix_empty.
    assert (Z : ((col_of out tb =? 1)%nat || (col_of out name =? 1)%nat || negb (line_of out tb =? line_of out te)%nat) && (line_of out te =? line_of out b')%nat = false).
    { apply andb_false_iff. destruct H as [H|H]; [right; now apply Nat.eqb_neq|left]. rewrite !orb_false_iff, negb_false_iff, Nat.eqb_eq, !Nat.eqb_neq. 
      destruct (Nat.eq_dec (line_of out tb) (line_of out te)); tauto. }
    destruct ((col_of out tb =? 1)%nat || (col_of out name =? 1)%nat); cbn [negb bind andb orb] in *; rewrite Z; reflexivity. }
  destruct (C96_function_brace w debug t tok_end kind fuel start tb te name b rb e) as (out & R & [(Wd & ind & Li & ->)|(Nw & ->)]); auto; [lia| |].
  - destruct Wd as [_ E2]. specialize (HL E2). destruct (leads_gap t tok_end kind _ _ _ HL) as (G1 & _ & _ & G4).
    exists (firstn e t ++ (NL :: ind) ++ skipn b t), (e + S (length ind))%nat. split; [exact R|].
    destruct (split_shape t e b ind ltac:(lia)) as [S1 S2]. split; [|split; [exact S1|]].
    + rewrite <- (Nat.min_l te e) by lia. now rewrite <- !firstn_firstn, S2.
    + apply Still.
      * rewrite !app_length, firstn_length, skipn_length. cbn [length]. destruct Li as (ls & _ & _ & _ & _ & Li). pose proof (solid_lt t tb Sb). lia.
      * left. pose proof (line_later t e ind (skipn b t) te ltac:(lia) G4). lia.
  - exists t, b. split; [exact R|]. split; [reflexivity|]. split; [reflexivity|]. apply Still; [lia|]. cbn zeta in Nw.
    destruct (Nat.eq_dec (line_of t te) (line_of t b)); tauto.
Qed.
Print Assumptions C97_function_partial.
(** Refuted: an empty member function with a prototype of several lines.  The first run joins the braces, the second run
    moves them to a line of their own, the third run deletes the closing brace. *)
Definition run1 : text := str ("  void f(int a," +++ nl +++ "         int b) {" +++ nl +++ "  }" +++ nl).
Definition run2 : text := str ("  void f(int a," +++ nl +++ "         int b) {}" +++ nl).
Definition run3 : text := str ("  void f(int a," +++ nl +++ "         int b)" +++ nl +++ "  {}" +++ nl).
Definition run4 : text := str ("  void f(int a," +++ nl +++ "         int b)" +++ nl +++ "  {" +++ nl).
Definition empty_member (t : text) : node := plain_func 2 2 (find t "b)" + 1) 7 (find t "{") (find t "}") true.
Theorem C97_empty_function_refuted :
  restyled 64 true run1 (demo_end run1) (demo_kind run1) (S (length run1)) [empty_member run1] run2 /\
  restyled 64 true run2 (demo_end run2) (demo_kind run2) (S (length run2)) [empty_member run2] run3 /\
  restyled 64 true run3 (demo_end run3) (demo_kind run3) (S (length run3)) [empty_member run3] run4.
Proof. split; [|split]; (eapply demo_restyled; [vm_compute; reflexivity|vm_compute; reflexivity]). Qed.
Print Assumptions C97_empty_function_refuted.
Example C97_nonvacuous :
  exists out b', restyled 64 true while_src (demo_end while_src) (demo_kind while_src) (S (length while_src)) [for_node 2 24 26] out /\
    firstn 25 out = firstn 25 while_src /\ skipn b' out = skipn 26 while_src /\
    restyled 64 true out (demo_end out) (demo_kind out) (S (length while_src)) [for_node 2 24 b'] out.
Proof.
  destruct (C97_statement_partial 64 true while_src (demo_end while_src) (demo_kind while_src) (S (length while_src)) 2 24 26
    (demo_end (str ("  while (a" +++ nl +++ "         && b)" +++ nl +++ "  {" +++ nl +++ "  }" +++ nl)))
    (demo_kind (str ("  while (a" +++ nl +++ "         && b)" +++ nl +++ "  {" +++ nl +++ "  }" +++ nl)))) as (out & b' & R1 & S1 & S2 & R2).
  - reflexivity.
  - num.
  - apply C96_nonvacuous.
  - num.
  - apply C96_nonvacuous.
  - exists out, b'.
    assert (E : out = str ("  while (a" +++ nl +++ "         && b)" +++ nl +++ "  {" +++ nl +++ "  }" +++ nl)).
    { destruct R1 as (o & seen & E1 & R1). vm_compute in E1. injection E1 as <- <-.
      specialize (R1 _ (sorted_single _)). vm_compute in R1. injection R1 as <-. reflexivity. }
    subst out. auto.
Qed.
Definition macro_src : text := str ("f();" +++ nl +++ "IF_X {" +++ nl +++ "}" +++ nl).
Example C96_no_parenthesis_nonvacuous :
  restyled 64 true macro_src (demo_end macro_src) (demo_kind macro_src) 100 [NCond (Cond true 5 true 10 None)] macro_src.
Proof.
  apply C96_no_parenthesis; [reflexivity|apply ltb_lt'; reflexivity|lia| |exact I].
  intros i Hi. do 11 (destruct i as [|i]; [first [lia | eexists; split; [vm_compute; reflexivity|discriminate]]|]). lia.
Qed.
