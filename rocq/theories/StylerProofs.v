From Verif Require Import Base RewriteModel RewriteSpec RewriteProofs StylerModel StylerSpec.
Local Open Scope nat_scope.
Local Open Scope list_scope.

(** ** Basics *)
Lemma squeeze_app a b : squeeze (a ++ b) = squeeze a ++ squeeze b.
Proof. unfold squeeze. induction a as [|c a IH]; cbn; [reflexivity|]. destruct (negb (white c)); cbn; congruence. Qed.
Lemma squeeze_white x : (forall c, In c x -> white c = true) -> squeeze x = [].
Proof. induction x as [|c x IH]; intros H; [reflexivity|]. cbn. rewrite (H c) by now left. apply IH. intros d Hd. apply H. now right. Qed.
Lemma solid_lt t i : solid t i -> i < length t.
Proof. intros (c & H & _). apply nth_error_Some. congruence. Qed.
Lemma blank_sub t a b a' b' : blank_between t a b -> a <= a' -> b' <= b -> blank_between t a' b'.
Proof. intros H Ha Hb i c Hi. apply H. lia. Qed.
Lemma solid_not_blank t a b i : blank_between t a b -> solid t i -> a <= i < b -> False.
Proof. intros H (c & Hc & W) Hi. specialize (H i c Hi Hc). congruence. Qed.
Lemma char_solid t i P : is_char t i P -> (forall c, P c -> white c = false) -> solid t i.
Proof. intros (c & H & X) Y. exists c. auto. Qed.
Lemma paren_solid t i : is_char t i (fun c => c = 41%N) -> solid t i.
Proof. intros H. eapply char_solid; [exact H|]. intros c ->. reflexivity. Qed.
Lemma close_solid t i : is_char t i (fun c => c = 41%N \/ c = 125%N) -> solid t i.
Proof. intros H. eapply char_solid; [exact H|]. intros c [-> | ->]; reflexivity. Qed.
Lemma comma_solid t i : is_char t i (fun c => c = 44%N) -> solid t i.
Proof. intros H. eapply char_solid; [exact H|]. intros c ->. reflexivity. Qed.
Lemma brace_solid t i : is_char t i (fun c => c = 123%N) -> solid t i.
Proof. intros H. eapply char_solid; [exact H|]. intros c ->. reflexivity. Qed.

Lemma white_run_le l : white_run l <= length l.
Proof. induction l as [|c l IH]; cbn; [lia|]. destruct (white c); lia. Qed.
Lemma white_run_white l c : In c (firstn (white_run l) l) -> white c = true.
Proof. induction l as [|d l IH]; cbn; [intros []|]. destruct (white d) eqn:E; cbn; [|intros []]. intros [->|H]; auto. Qed.
Lemma nth_skipn {A} (l : list A) k i : nth_error (skipn k l) i = nth_error l (k + i).
Proof. revert l. induction k as [|k IH]; intros l; [reflexivity|]. destruct l as [|x l]; cbn; [now destruct i|apply IH]. Qed.
Lemma white_run_exact l n : (forall i c, i < n -> nth_error l i = Some c -> white c = true) -> n <= length l ->
  match nth_error l n with Some c => white c = false | None => True end -> white_run l = n.
Proof.
  revert n. induction l as [|c l IH]; intros n H L E; cbn in *; [lia|]. destruct n as [|n]; [cbn in E; now rewrite E|].
  rewrite (H 0 c) by (auto; lia). f_equal. apply IH; [|lia|exact E]. intros i d Hi. apply (H (S i) d). lia.
Qed.

Section P.
Variable debug : bool.
Variable t : text.
Variable tok_end : nat -> nat.
Variable kind : nat -> tk.
Notation solid := (solid t). Notation blank := (blank_between t). Notation reaches := (reaches t tok_end kind). Notation leads := (leads t tok_end).
Notation char_at := (char_at t). Notation is_white := (is_white t). Notation skip_white := (skip_white t). Notation skip_token := (skip_token debug t tok_end).
Notation next_token := (next_token debug t tok_end kind). Notation line_of := (line_of t).

Lemma char_at_some i c : nth_error t i = Some c -> char_at i = Ok c.
Proof.
  intros H. unfold StylerModel.char_at. assert (i < length t) by (apply nth_error_Some; congruence).
  destruct (Nat.eqb_spec i (length t)); [lia|]. now rewrite H.
Qed.
Lemma is_white_solid i : solid i -> is_white i = Ok false.
Proof. intros (c & H & W). unfold StylerModel.is_white. rewrite (char_at_some i c H). cbn. now rewrite W. Qed.
Lemma is_white_blank i j : i < j -> j <= length t -> blank i j -> is_white i = Ok true.
Proof.
  intros H L B. destruct (nth_error t i) as [c|] eqn:E; [|apply nth_error_None in E; lia].
  unfold StylerModel.is_white. rewrite (char_at_some i c E). cbn. now rewrite (B i c ltac:(lia) E).
Qed.
Lemma skip_white_ok i j : i <= j -> blank i j -> solid j -> skip_white i = Ok j.
Proof.
  intros L B S. pose proof (solid_lt t j S) as Lj. unfold StylerModel.skip_white. destruct (Nat.leb_spec i (length t)); [|lia]. f_equal.
  rewrite (white_run_exact (skipn i t) (j - i)); [lia| | |].
  - intros k c Hk E. rewrite nth_skipn in E. apply (B (i + k) c); [lia|exact E].
  - rewrite skipn_length. lia.
  - rewrite nth_skipn. replace (i + (j - i)) with j by lia. destruct S as (c & E & W). now rewrite E.
Qed.
Lemma assert_ok b : b = true -> assert_ debug b = Ok tt.
Proof. intros ->. unfold assert_. now rewrite andb_false_r. Qed.
Lemma skip_token_ok i : solid i -> skip_token i = Ok (tok_end i).
Proof. intros S. unfold StylerModel.skip_token. rewrite (is_white_solid i S). cbn [bind negb]. now rewrite assert_ok. Qed.
Lemma reaches_solid i j : reaches i j -> solid j /\ i <= j.
Proof. induction 1; [auto|]. destruct IHreaches. split; auto; lia. Qed.
Lemma next_token_ok i j : reaches i j -> forall fuel, length t - i < fuel -> next_token fuel i = Ok j.
Proof.
  induction 1 as [i j L B S K|i k j L B S K T R IH]; intros fuel Hf; (destruct fuel as [|fuel]; [lia|]); cbn [StylerModel.next_token].
  - rewrite (skip_white_ok i j L B S). cbn [bind]. destruct (kind j); congruence.
  - rewrite (skip_white_ok i k L B S). cbn [bind]. rewrite K, (skip_token_ok k S). cbn [bind]. apply IH. pose proof (solid_lt t k S). lia.
Qed.
Lemma leads_gap i e b : leads i e b -> e < b /\ blank e b /\ solid b /\ i <= e.
Proof. induction 1 as [e b H B S|i j e b H B S L IH|i e b S T L IH]; [auto|destruct IH as (? & ? & ? & ?)..]; repeat split; auto; lia. Qed.
Lemma first_white_ok i e b : leads i e b -> forall fuel, b - i < fuel -> first_white_before debug t tok_end fuel i b = Ok e.
Proof.
  induction 1 as [e b H B S|i j e b H B S L IH|i e b S T L IH]; intros fuel Hf; (destruct fuel as [|fuel]; [lia|]); cbn [first_white_before].
  - rewrite (is_white_blank e b H ltac:(pose proof (solid_lt t b S); lia) B). cbn [bind]. rewrite (skip_white_ok e b ltac:(lia) B S). cbn [bind]. now rewrite Nat.eqb_refl.
  - destruct (leads_gap _ _ _ L) as (G1 & G2 & G3 & G4).
    rewrite (is_white_blank i j H ltac:(pose proof (solid_lt t j S); lia) B). cbn [bind]. rewrite (skip_white_ok i j ltac:(lia) B S). cbn [bind].
    destruct (Nat.eqb_spec j b); [lia|]. rewrite assert_ok by (apply Nat.ltb_lt; lia). cbn [bind]. apply IH. lia.
  - destruct (leads_gap _ _ _ L) as (G1 & G2 & G3 & G4). rewrite (is_white_solid i S). cbn [bind]. rewrite (skip_token_ok i S). cbn [bind].
    rewrite assert_ok by (apply Nat.ltb_lt; lia). cbn [bind]. apply IH. lia.
Qed.
Lemma newline_back_ok i : i <= length t -> exists r, newline_back t i = Ok r.
Proof.
  induction i as [|i IH]; intros L; cbn [newline_back].
  - destruct (nth_error t 0) as [c|] eqn:E; [rewrite (char_at_some 0 c E)|unfold StylerModel.char_at; apply nth_error_None in E; destruct (Nat.eqb_spec 0 (length t)); [|lia]]; cbn [bind];
      (destruct (N.eqb _ NL); eauto).
  - assert (X : exists c, char_at (S i) = Ok c).
    { destruct (nth_error t (S i)) as [c|] eqn:E; [exists c; now apply char_at_some|]. exists 0%N. unfold StylerModel.char_at. apply nth_error_None in E. destruct (Nat.eqb_spec (S i) (length t)); [auto|lia]. }
    destruct X as (c & X). rewrite X. cbn [bind]. destruct (N.eqb c NL); [eauto|]. apply IH. lia.
Qed.
Lemma indent_ok i : i <= length t -> exists x, indent_for_line t i = Ok x /\ forall c, In c x -> white c = true.
Proof.
  intros L. unfold indent_for_line. destruct (newline_back_ok i L) as (r & ->). cbn [bind]. eexists. split; [reflexivity|]. intros c. apply white_run_white.
Qed.
Lemma rparen_back_ok stop p b : stop < p -> follows_paren t p b -> rparen_back t stop b = Ok (Some p).
Proof.
  intros Hs ((cp & Ep & ->) & Hp & B & (cb & Eb & ->)).
  assert (G : forall k, k <= b - S p -> rparen_back t stop (p + k) = Ok (Some p)).
  { induction k as [|k IH]; intros Hk.
    - rewrite Nat.add_0_r. destruct p as [|p]; [lia|]. cbn [rparen_back]. destruct (Nat.eqb_spec (S p) stop); [lia|]. rewrite (char_at_some _ _ Ep). reflexivity.
    - replace (p + S k) with (S (p + k)) by lia. cbn [rparen_back]. destruct (Nat.eqb_spec (S (p + k)) stop); [lia|].
      destruct (nth_error t (S (p + k))) as [c|] eqn:E; [|apply nth_error_None in E; assert (b < length t) by (apply nth_error_Some; congruence); lia].
      rewrite (char_at_some _ _ E). cbn [bind]. pose proof (B (S (p + k)) c ltac:(lia) E) as Wc.
      destruct (N.eqb_spec c 41) as [->|]; [discriminate|]. apply IH. lia. }
  destruct b as [|b]; [lia|]. cbn [rparen_back]. destruct (Nat.eqb_spec (S b) stop); [lia|]. rewrite (char_at_some _ _ Eb). cbn [bind N.eqb Pos.eqb].
  replace b with (p + (b - p)) by lia. apply G. lia.
Qed.

(** ** Edits *)
Inductive edit := EGap (a b : nat) (x : text) (r : bool) | EIns (e : nat) | EComma (r n : nat).
Definition ops_of (x : edit) : list (operation N) :=
  match x with
  | EGap a b x true => [Op Replace (N.of_nat a) (N.of_nat (b - a)) x]
  | EGap a b _ false => [Op Remove (N.of_nat a) (N.of_nat (b - a)) []]
  | EIns e => [Op InsertAt (N.of_nat e) 0%N [32%N]]
  | EComma r n => [Op InsertAfter (N.of_nat r) 0%N [44%N]; Op Replace (N.of_nat n) 1%N [32%N]]
  end.
Definition edit_ok (x : edit) : Prop :=
  match x with
  | EGap a b x _ => a < b /\ blank a b /\ solid b /\ forall c, In c x -> white c = true
  | EIns e => solid e /\ 0 < e /\ nth_error t (e - 1) = Some 114%N
  | EComma r n => is_char t r (fun c => c = 41%N \/ c = 125%N) /\ r < n /\ blank (S r) n /\ is_char t n (fun c => c = 44%N)
  end.
Definition anchor (x : edit) : nat := match x with EGap _ b _ _ => b | EIns e => e | EComma r _ => r end.

Lemma edit_inside x op : edit_ok x -> In op (ops_of x) -> inside t op /\ nonempty_span op.
Proof.
  destruct x as [a b x [|]|e|r n]; cbn [edit_ok ops_of]; intros E H.
  - destruct H as [<-|[]]. destruct E as (H1 & H2 & H3 & _). apply solid_lt in H3. unfold inside, nonempty_span, offset; cbn. rewrite !Nat2N.id. split; [split|]; intros; lia.
  - destruct H as [<-|[]]. destruct E as (H1 & H2 & H3 & _). apply solid_lt in H3. unfold inside, nonempty_span, offset; cbn. rewrite !Nat2N.id. split; [split|]; intros; lia.
  - destruct H as [<-|[]]. destruct E as (H1 & H2 & H3). apply solid_lt in H1. unfold inside, nonempty_span, is_span, offset; cbn. rewrite !Nat2N.id. split; [split|]; intros; try lia; intuition discriminate.
  - destruct E as (H1 & H2 & H3 & H4). apply close_solid, solid_lt in H1. apply comma_solid, solid_lt in H4.
    destruct H as [<-|[<-|[]]]; unfold inside, nonempty_span, is_span, offset; cbn; rewrite !Nat2N.id; (split; [split|]); intros; try lia; intuition discriminate.
Qed.
(** What an operation of a good edit touches. *)
Lemma op_place x op : edit_ok x -> In op (ops_of x) ->
  (exists a b y r, x = EGap a b y r /\ offset op = a /\ forall i, takes_away op i = true <-> a <= i < b) \/
  (solid (offset op) /\ (forall i, takes_away op i = true -> i = offset op) /\
   ((exists e, x = EIns e /\ offset op = e) \/ exists r n, x = EComma r n /\ (offset op = r \/ offset op = n))).
Proof.
  destruct x as [a b y r|e|r n]; cbn [edit_ok]; intros E H.
  - left. exists a, b, y, r. split; [reflexivity|]. destruct E as (E & _). 
    assert (X : offset op = a /\ N.to_nat (op_length op) = b - a /\ is_span op) by (destruct r; cbn in H; destruct H as [<-|[]]; unfold offset, is_span; cbn; rewrite !Nat2N.id; auto).
    destruct X as (X1 & X2 & X3). split; [exact X1|]. intros i. unfold takes_away. destruct X3 as [-> | ->]; rewrite andb_true_iff, Nat.leb_le, Nat.ltb_lt; lia.
  - right. destruct H as [<-|[]]. unfold offset. cbn. rewrite Nat2N.id. destruct E as (E & _). split; [exact E|]. split; [intros i X; discriminate|]. left. eauto.
  - right. destruct E as (H1 & H2 & H3 & H4). destruct H as [<-|[<-|[]]]; unfold offset; cbn; rewrite ?Nat2N.id.
    + split; [now apply close_solid|]. split; [intros i X; discriminate|]. right. exists r, n. auto.
    + split; [now apply comma_solid|]. split; [|right; exists r, n; auto]. intros i X. unfold takes_away, offset in X. cbn in X. rewrite Nat2N.id in X.
      apply andb_prop in X as [X1 X2]. apply Nat.leb_le in X1. apply Nat.ltb_lt in X2. lia.
Qed.
Lemma edits_apart x y a b : edit_ok x -> edit_ok y -> anchor x <> anchor y -> In a (ops_of x) -> In b (ops_of y) -> apart a b.
Proof.
  intros Ex Ey N Ha Hb.
  destruct (op_place x a Ex Ha) as [(a1 & b1 & y1 & r1 & -> & O1 & T1)|(S1 & T1 & K1)], (op_place y b Ey Hb) as [(a2 & b2 & y2 & r2 & -> & O2 & T2)|(S2 & T2 & K2)].
  - cbn in N, Ex, Ey. destruct Ex as (L1 & B1 & S1 & _), Ey as (L2 & B2 & S2 & _).
    assert (D : b1 < a2 \/ b2 < a1).
    { destruct (Nat.lt_trichotomy b1 b2) as [H|[H|H]]; [left|congruence|right].
      - destruct (Nat.lt_ge_cases b1 a2) as [|X]; [auto|exfalso]. exact (solid_not_blank t a2 b2 b1 B2 S1 ltac:(lia)).
      - destruct (Nat.lt_ge_cases b2 a1) as [|X]; [auto|exfalso]. exact (solid_not_blank t a1 b1 b2 B1 S2 ltac:(lia)). }
    unfold apart. rewrite O1, O2. split; [lia|]. split; apply not_true_iff_false; rewrite ?T1, ?T2; lia.
  - cbn in Ex. destruct Ex as (L1 & B1 & S1 & _). unfold apart. rewrite O1. split; [|split].
    + intros X. apply (solid_not_blank t a1 b1 (offset b) B1 S2). lia.
    + apply not_true_iff_false. rewrite T1. intros X. exact (solid_not_blank t a1 b1 (offset b) B1 S2 X).
    + apply not_true_iff_false. intros X. apply T2 in X. apply (solid_not_blank t a1 b1 (offset b) B1 S2). lia.
  - cbn in Ey. destruct Ey as (L2 & B2 & S2 & _). unfold apart. rewrite O2. split; [|split].
    + intros X. apply (solid_not_blank t a2 b2 (offset a) B2 S1). lia.
    + apply not_true_iff_false. intros X. apply T1 in X. apply (solid_not_blank t a2 b2 (offset a) B2 S1). lia.
    + apply not_true_iff_false. rewrite T2. intros X. exact (solid_not_blank t a2 b2 (offset a) B2 S1 X).
  - assert (D : offset a <> offset b).
    { destruct K1 as [(e1 & -> & O1)|(r1 & n1 & -> & O1)], K2 as [(e2 & -> & O2)|(r2 & n2 & -> & O2)]; cbn in N, Ex, Ey.
      - congruence.
      - destruct O2 as [O2|O2]; [congruence|]. rewrite O1, O2. intros ->. destruct Ex as (_ & P & X), Ey as (R & L & B & _).
        destruct (Nat.eq_dec (n2 - 1) r2) as [Q|Q].
        + rewrite Q in X. destruct R as (c & R & [-> | ->]); congruence.
        + pose proof (B (n2 - 1) _ ltac:(lia) X) as W. discriminate.
      - destruct O1 as [O1|O1]; [congruence|]. rewrite O1, O2. intros <-. destruct Ey as (_ & P & X), Ex as (R & L & B & _).
        destruct (Nat.eq_dec (n1 - 1) r1) as [Q|Q].
        + rewrite Q in X. destruct R as (c & R & [-> | ->]); congruence.
        + pose proof (B (n1 - 1) _ ltac:(lia) X) as W. discriminate.
      - destruct Ex as (R1 & L1 & B1 & C1), Ey as (R2 & L2 & B2 & C2).
        destruct O1 as [O1|O1], O2 as [O2|O2]; rewrite O1, O2; intros Q; clear O1 O2 S1 T1 S2 T2 Ha Hb.
        + congruence.
        + subst n2. destruct R1 as (c & R1 & X), C2 as (d & C2 & ->). rewrite R1 in C2. injection C2 as ->. destruct X; discriminate.
        + subst n1. destruct R2 as (c & R2 & X), C1 as (d & C1 & ->). rewrite C1 in R2. injection R2 as <-. destruct X; discriminate.
        + subst n2. destruct (Nat.lt_trichotomy r1 r2) as [H|[H|H]]; [|congruence|].
          * exact (solid_not_blank t (S r1) n1 r2 B1 (close_solid _ _ R2) ltac:(lia)).
          * exact (solid_not_blank t (S r2) n1 r1 B2 (close_solid _ _ R1) ltac:(lia)). }
    unfold apart. split; [exact D|]. split; apply not_true_iff_false; intros X; [apply T1 in X|apply T2 in X]; congruence.
Qed.
Lemma own_apart x : edit_ok x -> ForallOrdPairs apart (ops_of x).
Proof.
  destruct x as [a b y [|]|e|r n]; cbn [edit_ok ops_of]; intros E; try (repeat constructor; fail).
  constructor; [|repeat constructor]. constructor; [|constructor]. destruct E as (_ & L & _). unfold apart, takes_away, offset; cbn. rewrite !Nat2N.id.
  split; [lia|]. split; [reflexivity|]. apply andb_false_iff. left. apply Nat.leb_gt. lia.
Qed.
Lemma FOP_app {A} (R : A -> A -> Prop) l1 l2 : ForallOrdPairs R l1 -> ForallOrdPairs R l2 -> (forall a b, In a l1 -> In b l2 -> R a b) -> ForallOrdPairs R (l1 ++ l2).
Proof.
  induction 1 as [|a l F1 F2 IH]; intros H2 H; [exact H2|]. cbn. constructor.
  - apply Forall_app. split; [exact F1|]. apply Forall_forall. intros b Hb. apply H; [now left|exact Hb].
  - apply IH; auto. intros x b Hx Hb. apply H; [now right|exact Hb].
Qed.
Definition all_ops (es : list edit) : list (operation N) := flat_map ops_of es.
Lemma all_ops_apart es : Forall edit_ok es -> NoDup (map anchor es) -> all_apart (all_ops es).
Proof.
  unfold all_apart, all_ops. induction es as [|x es IH]; intros F N; [constructor|]. inversion F; subst. inversion N as [|? ? N1 N2]; subst. cbn [flat_map].
  apply FOP_app; [now apply own_apart|auto|]. intros a b Ha Hb. apply in_flat_map in Hb as (y & Hy & Hb). apply (edits_apart x y a b); auto.
  - rewrite Forall_forall in H2. auto.
  - intros E. apply N1. rewrite E. now apply in_map.
Qed.
Lemma all_ops_inside es : Forall edit_ok es -> Forall (inside t) (all_ops es) /\ Forall nonempty_span (all_ops es).
Proof.
  intros F. rewrite Forall_forall in F. split; apply Forall_forall; intros op H; apply in_flat_map in H as (x & Hx & H); apply (edit_inside x op (F x Hx) H).
Qed.

(** ** The squeezed text does not change *)
Lemma flat_empty (f : operation N -> nat -> text) i ops : (forall op, In op ops -> squeeze (f op i) = []) -> squeeze (flat_map (fun op => f op i) ops) = [].
Proof. induction ops as [|op ops IH]; intros H; [reflexivity|]. cbn. rewrite squeeze_app, (H op) by now left. apply IH. intros o Ho. apply H. now right. Qed.
Lemma before_white es op i : Forall edit_ok es -> In op (all_ops es) -> squeeze (before op i) = [].
Proof.
  intros F H. apply in_flat_map in H as (x & Hx & H). rewrite Forall_forall in F. specialize (F x Hx). unfold before. destruct (offset op =? i); [|reflexivity].
  destruct x as [a b y [|]|e|r n]; cbn in H; (destruct H as [<-|H]; [|]); cbn; try reflexivity; try contradiction.
  - apply squeeze_white. apply F.
  - destruct H as [<-|[]]. reflexivity.
Qed.
Lemma behind_comma es op i : Forall edit_ok es -> In op (all_ops es) -> behind op i = [] \/ exists n, In (EComma i n) es /\ behind op i = [44%N].
Proof.
  intros F H. apply in_flat_map in H as (x & Hx & H). unfold behind. destruct (Nat.eqb_spec (offset op) i) as [E|]; [|auto].
  destruct x as [a b y [|]|e|r n]; cbn in H; (destruct H as [<-|H]; [|]); cbn; auto; try contradiction.
  - right. exists n. unfold offset in E. cbn in E. rewrite Nat2N.id in E. subst. auto.
  - destruct H as [<-|[]]. auto.
Qed.
Section Squeezed.
Variable es : list edit.
Hypothesis F : Forall edit_ok es.
Hypothesis ND : NoDup (map anchor es).
Definition owed (i : nat) : Prop := exists r n, In (EComma r n) es /\ r < i <= n.
Definition opens (i : nat) : Prop := exists n, In (EComma i n) es.
Lemma ok_in x : In x es -> edit_ok x. Proof. intros H. rewrite Forall_forall in F. auto. Qed.
Lemma comma_unique r n r' n' : In (EComma r n) es -> In (EComma r' n') es -> r = r' -> n = n'.
Proof.
  intros H H' E. subst r'. assert (X : EComma r n = EComma r n'); [|congruence].
  destruct (In_nth_error _ _ H) as (i & Hi), (In_nth_error _ _ H') as (j & Hj).
  assert (i = j); [|congruence]. rewrite NoDup_nth_error in ND. apply ND.
  - rewrite map_length. apply nth_error_Some. congruence.
  - rewrite !nth_error_map, Hi, Hj. reflexivity.
Qed.
(** Intervals of different commas are disjoint. *)
Lemma comma_disjoint r n r' n' : In (EComma r n) es -> In (EComma r' n') es -> r < r' -> n < r'.
Proof.
  intros H H' L. destruct (ok_in _ H) as (R & L1 & B & C), (ok_in _ H') as (R' & _ & _ & _).
  destruct (Nat.lt_trichotomy n r') as [|[E|G]]; [auto|exfalso..].
  - subst n. destruct R' as (c & X & Y), C as (d & C & ->). rewrite C in X. injection X as <-. destruct Y; discriminate.
  - exact (solid_not_blank t (S r) n r' B (close_solid _ _ R') ltac:(lia)).
Qed.
Definition piece_at (i : nat) (c : N) : text := squeeze (piece (all_ops es) i c).
Lemma squeeze_behind i : squeeze (flat_map (fun op => behind op i) (all_ops es)) = if existsb (fun x => match x with EComma r _ => r =? i | _ => false end) es then [44%N] else [].
Proof.
  assert (D : ForallOrdPairs (fun a b : operation N => offset a <> offset b) (all_ops es)).
  { eapply FOP_impl; [|exact (all_ops_apart es F ND)]. intros a b (E & _). exact E. }
  destruct (flat_at N behind i (fun op => behind_elsewhere N op i) (all_ops es) D) as [A1 A2].
  destruct (existsb _ es) eqn:E.
  - apply existsb_exists in E as (x & Hx & E). destruct x as [| |r n]; try discriminate. apply Nat.eqb_eq in E. subst r.
    rewrite (A1 (Op InsertAfter (N.of_nat i) 0%N [44%N])).
    + unfold behind, offset. cbn. rewrite Nat2N.id, Nat.eqb_refl. reflexivity.
    + apply in_flat_map. exists (EComma i n). split; [exact Hx|now left].
    + unfold offset. cbn. now rewrite Nat2N.id.
  - apply flat_empty. intros op H. destruct (behind_comma es op i F H) as [->|(n & Hn & _)]; [reflexivity|]. exfalso.
    assert (existsb (fun x => match x with EComma r _ => r =? i | _ => false end) es = true); [|congruence].
    apply existsb_exists. exists (EComma i n). split; [exact Hn|]. apply Nat.eqb_refl.
Qed.
Lemma piece_at_eq i c : piece_at i c = (if existsb (fun op => takes_away op i) (all_ops es) then [] else squeeze [c]) ++
  (if existsb (fun x => match x with EComma r _ => r =? i | _ => false end) es then [44%N] else []).
Proof.
  unfold piece_at, piece. rewrite !squeeze_app, squeeze_behind, (flat_empty before); [|intros op H; now apply (before_white es)].
  cbn [app]. f_equal. now destruct (existsb _ (all_ops es)).
Qed.
Lemma taken i c : nth_error t i = Some c ->
  (existsb (fun op => takes_away op i) (all_ops es) = true -> white c = true \/ exists r, In (EComma r i) es) /\
  ((exists r, In (EComma r i) es) -> existsb (fun op => takes_away op i) (all_ops es) = true).
Proof.
  intros Hc. split.
  - intros E. apply existsb_exists in E as (op & Hin & T). apply in_flat_map in Hin as (x & Hx & Hin).
    destruct (op_place x op (ok_in x Hx) Hin) as [(a & b & y & r & -> & O & Ti)|(S & Ti & K)].
    + left. destruct (ok_in _ Hx) as (_ & B & _). apply (B i c); [now apply Ti|exact Hc].
    + right. specialize (Ti i T). destruct K as [(e & -> & O)|(r & n & -> & O)].
      * cbn in Hin. destruct Hin as [<-|[]]. discriminate.
      * exists r. cbn in Hin. destruct Hin as [<-|[<-|[]]]; [discriminate|]. unfold offset in Ti. cbn in Ti. rewrite Nat2N.id in Ti. now subst.
  - intros (r & Hr). apply existsb_exists. exists (Op Replace (N.of_nat i) 1%N [32%N]). split.
    + apply in_flat_map. exists (EComma r i). split; [exact Hr|right; now left].
    + unfold takes_away, offset. cbn. rewrite Nat2N.id. apply andb_true_intro. split; [apply Nat.leb_le|apply Nat.ltb_lt]; lia.
Qed.
Lemma opens_b i : existsb (fun x => match x with EComma r _ => r =? i | _ => false end) es = true <-> opens i.
Proof.
  split.
  - intros E. apply existsb_exists in E as (x & Hx & E). destruct x as [| |r n]; try discriminate. apply Nat.eqb_eq in E. subst. now exists n.
  - intros (n & Hn). apply existsb_exists. exists (EComma i n). split; [exact Hn|apply Nat.eqb_refl].
Qed.
Lemma owed_dec i : owed i \/ ~ owed i.
Proof.
  destruct (existsb (fun x => match x with EComma r n => (r <? i) && (i <=? n) | _ => false end) es) eqn:E.
  - left. apply existsb_exists in E as (x & Hx & E). destruct x as [| |r n]; try discriminate. apply andb_prop in E as [E1 E2].
    apply Nat.ltb_lt in E1. apply Nat.leb_le in E2. exists r, n. auto.
  - right. intros (r & n & H & L). assert (existsb (fun x => match x with EComma r n => (r <? i) && (i <=? n) | _ => false end) es = true); [|congruence].
    apply existsb_exists. exists (EComma r n). split; [exact H|]. apply andb_true_intro. split; [apply Nat.ltb_lt|apply Nat.leb_le]; lia.
Qed.
Lemma squeeze_suffix : forall l i, skipn i t = l -> 
  (owed i -> 44%N :: squeeze (edited (all_ops es) i l) = squeeze l) /\ (~ owed i -> squeeze (edited (all_ops es) i l) = squeeze l).
Proof.
  induction l as [|c l IH]; intros i E.
  - split; [|reflexivity]. intros (r & n & H & L). exfalso. destruct (ok_in _ H) as (_ & _ & _ & C). apply comma_solid, solid_lt in C.
    assert (X : length (skipn i t) = 0) by now rewrite E. rewrite skipn_length in X. lia.
  - assert (Hc : nth_error t i = Some c) by (replace i with (i + 0) by lia; rewrite <- nth_skipn, E; reflexivity).
    assert (E' : skipn (S i) t = l).
    { clear - E. revert E. generalize t. induction i as [|i IHi]; intros t0 E; [cbn in E; now rewrite E|]. destruct t0 as [|d t0]; [discriminate|]. cbn [skipn] in E |- *. now apply IHi. }
    destruct (IH (S i) E') as [I1 I2]. destruct (taken i c Hc) as [T1 T2].
    cbn [edited]. rewrite squeeze_app. fold (piece_at i c). rewrite piece_at_eq.
    assert (Hcl : squeeze (c :: l) = squeeze [c] ++ squeeze l) by (rewrite <- squeeze_app; reflexivity). rewrite Hcl.
    split; intros O.
    + destruct O as (r & n & H & L). destruct (ok_in _ H) as (R & L1 & B & C).
      assert (NO : existsb (fun x => match x with EComma r0 _ => r0 =? i | _ => false end) es = false).
      { apply not_true_iff_false. rewrite opens_b. intros (n' & H'). pose proof (comma_disjoint r n i n' H H' ltac:(lia)). lia. }
      rewrite NO, app_nil_r. destruct (Nat.eq_dec i n) as [->|Hne].
      * rewrite T2 by eauto. cbn [app]. destruct C as (d & C & ->). rewrite C in Hc. injection Hc as <-. cbn [squeeze filter white negb]. cbn. f_equal. apply I2.
        intros (r' & n' & H' & L'). destruct (Nat.lt_trichotomy r r') as [G|[G|G]].
        -- pose proof (comma_disjoint r n r' n' H H' G). lia.
        -- pose proof (comma_unique r n r' n' H H' G). lia.
        -- pose proof (comma_disjoint r' n' r n H' H G). lia.
      * pose proof (B i c ltac:(lia) Hc) as Wc. assert (Z : squeeze [c] = []) by (cbn; now rewrite Wc). rewrite Z.
        replace (if existsb (fun op => takes_away op i) (all_ops es) then [] else []) with (@nil N) by now destruct (existsb _ _).
        cbn [app]. apply I1. exists r, n. split; [exact H|lia].
    + assert (NT : ~ exists r, In (EComma r i) es).
      { intros (r & H). apply O. exists r, i. split; [exact H|]. destruct (ok_in _ H) as (_ & L & _). lia. }
      replace (if existsb (fun op => takes_away op i) (all_ops es) then [] else squeeze [c]) with (squeeze [c]).
      2: { destruct (existsb _ (all_ops es)) eqn:X; [|reflexivity]. destruct (T1 eq_refl) as [Wc|Q]; [cbn; now rewrite Wc|contradiction]. }
      rewrite <- app_assoc. f_equal. destruct (existsb _ es) eqn:X.
      * apply opens_b in X as (n & H). cbn [app]. apply I1. exists i, n. split; [exact H|]. destruct (ok_in _ H) as (_ & L & _). lia.
      * cbn [app]. apply I2. intros (r & n & H & L). destruct (Nat.eq_dec r i) as [->|Hne].
        -- apply not_true_iff_false in X. apply X. apply opens_b. now exists n.
        -- apply O. exists r, n. split; [exact H|lia].
Qed.
Theorem squeeze_edited : squeeze (edited (all_ops es) 0 t) = squeeze t.
Proof.
  destruct (squeeze_suffix t 0 eq_refl) as [_ H]. apply H. intros (r & n & _ & L). lia.
Qed.
End Squeezed.
End P.
