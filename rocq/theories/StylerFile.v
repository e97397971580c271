From Verif Require Import Base RewriteModel RewriteSpec RewriteProofs RewriteProps StylerModel StylerSpec StylerRules StylerProofs StylerVisit StylerProps.
Local Open Scope nat_scope.
Local Open Scope list_scope.

Lemma line_start_unique t i a b : line_start t i a -> line_start t i b -> a = b.
Proof.
  intros (A1 & A2 & A3) (B1 & B2 & B3). destruct (Nat.lt_trichotomy a b) as [L|[E|L]]; [exfalso|exact E|exfalso].
  - destruct B2 as [->|B2]; [lia|]. apply (A3 (b - 1)); [lia|exact B2].
  - destruct A2 as [->|A2]; [lia|]. apply (B3 (a - 1)); [lia|exact A2].
Qed.
Lemma leading_nth (t : text) ls (x : text) k c : x = firstn (length x) (skipn ls t) -> k < length x -> nth_error t (ls + k) = Some c -> In c x.
Proof.
  intros E L N. rewrite E. apply (nth_error_In _ k). rewrite <- nth_skipn in N. rewrite <- N. clear - L. generalize (skipn ls t). intros l.
  revert k L. generalize (length x). induction l as [|y l IH]; intros [|n] [|m] Hm; cbn; try lia; try reflexivity. apply IH. lia.
Qed.
Lemma leading_unique t i x y : leading t i x -> leading t i y -> x = y.
Proof.
  intros (a & A1 & A2 & A3 & (ca & A4 & A4') & A5) (b & B1 & B2 & B3 & (cb & B4 & B4') & B5). rewrite (line_start_unique t i b a B1 A1) in *.
  assert (length x = length y); [|congruence].
  destruct (Nat.lt_trichotomy (length x) (length y)) as [L|[E|L]]; [exfalso|exact E|exfalso].
  - assert (white ca = true); [|congruence]. apply B3. exact (leading_nth t a y _ _ B2 L A4).
  - assert (white cb = true); [|congruence]. apply A3. exact (leading_nth t a x _ _ A2 L B4).
Qed.

Section V.
Variable w : N.
Variable debug : bool.
Variable t : text.
Variable tok_end : nat -> nat.
Variable kind : nat -> tk.
Hypothesis Hw : (N.of_nat (length t) < 2 ^ w - 1)%N.
Notation solid := (solid t). Notation blank := (blank_between t). Notation line_of := (line_of t).
Notation neat := (neat t tok_end kind). Notation wanted := (wanted t tok_end kind). Notation own_line := (own_line t).

Lemma split_l o i a b : solid i -> a <= b -> solid b -> exists op, split_brace w t o i a b = Ok (o ++ [op]) /\ forall op', own_line i a b op' <-> op' = op.
Proof.
  intros Si L Sb. destruct (indent_spec t i Si) as (ind & Ei & Li). pose proof (solid_lt t b Sb).
  exists (Op Replace (N.of_nat a) (N.of_nat (b - a)) (NL :: ind)). split.
  - unfold split_brace. rewrite Ei. cbn [bind]. unfold replace. rewrite (usub_exact w t tok_end kind Hw) by lia. reflexivity.
  - intros op'. split.
    + intros (ind' & L' & ->). now rewrite (leading_unique t i _ _ L' Li).
    + intros ->. now exists ind.
Qed.
Lemma follows_unique p q b : follows_paren t p b -> follows_paren t q b -> p = q.
Proof.
  intros (P1 & P2 & P3 & _) (Q1 & Q2 & Q3 & _). destruct (Nat.lt_trichotomy p q) as [L|[E|L]]; [exfalso|exact E|exfalso].
  - apply (solid_not_blank t (S p) b q P3); [now apply paren_solid|lia].
  - apply (solid_not_blank t (S q) b p Q3); [now apply paren_solid|lia].
Qed.
Lemma maybe_l o s p : c_main s = true -> c_compound s = true -> solid (c_start s) -> follows_paren t p (c_body s) ->
  exists l, maybe_split_brace w t o (c_start s) p (c_body s) = Ok (o ++ l) /\ forall op, In op l <-> statement_rule t s op.
Proof.
  intros M C Ss FP. pose proof FP as (Pc & Lb & B & Pb). unfold maybe_split_brace.
  assert (Z : ~ (line_of (c_start s) <> line_of p /\ line_of p = line_of (c_body s)) -> exists l, Ok o = Ok (o ++ l) /\ forall op, In op l <-> statement_rule t s op).
  { intros H. exists []. rewrite app_nil_r. split; [reflexivity|]. intros op. split; [intros []|]. intros (_ & _ & q & FQ & A & B' & _).
    rewrite <- (follows_unique p q _ FP FQ) in *. tauto. }
  destruct (Nat.eqb_spec (line_of (c_start s)) (line_of p)) as [E1|E1]; [apply Z; tauto|].
  destruct (Nat.eqb_spec (line_of p) (line_of (c_body s))) as [E2|E2]; [|apply Z; tauto]. cbn [negb]. unfold split_brace_after.
  destruct (split_l o (c_start s) (S p) (c_body s) Ss ltac:(lia) (brace_solid _ _ Pb)) as (op & E & H). exists [op]. split; [exact E|].
  intros op'. split.
  - intros [<-|[]]. split; [exact M|]. split; [exact C|]. exists p. split; [exact FP|]. split; [exact E1|]. split; [exact E2|]. now apply H.
  - intros (_ & _ & q & FQ & _ & _ & O). rewrite <- (follows_unique p q _ FP FQ) in O. left. symmetry. now apply H.
Qed.
Lemma skip_l s (op : operation N) : c_main s && c_compound s = false -> ~ statement_rule t s op.
Proof. intros E (M & C & _). rewrite M, C in E. discriminate. Qed.
Lemma cond_l fuel o s : length t < fuel -> neat_cond t tok_end kind s -> solid (c_start s) ->
  exists l, handle_cond w debug t tok_end kind fuel o s = Ok (o ++ l) /\ forall op, In op l <-> statement_rule t s op.
Proof.
  intros Hf HN Ss. unfold handle_cond, neat_cond in *. pose proof (skip_l s) as SK.
  destruct (c_main s) eqn:M; cbn [negb andb] in *; [|exists []; rewrite app_nil_r; split; [reflexivity|]; intros op; split; [intros []|apply SK; reflexivity]].
  destruct (c_compound s) eqn:C; cbn [negb] in *; [|exists []; rewrite app_nil_r; split; [reflexivity|]; intros op; split; [intros []|apply SK; reflexivity]].
  destruct (HN eq_refl eq_refl) as (p & Hs & FP & HE).
  assert (R : (do r <- match c_end s with None => Ok None | Some e => rparen_after debug t tok_end kind fuel e end;
    match r with None => rparen_back t (c_start s) (c_body s) | Some p => Ok (Some p) end) = Ok (Some p)).
  { destruct (c_end s) as [e|]; [|now apply (rparen_back_ok t tok_end kind)].
    destruct (rparen_after_ok w debug t tok_end kind Hw fuel e p _ Hf HE) as [E|[E _]]; rewrite E; [reflexivity|]. cbn [bind]. now apply (rparen_back_ok t tok_end kind). }
  destruct (maybe_l o s p M C Ss FP) as (l & E & H). exists l. split; [|exact H]. rewrite <- E.
  destruct (match c_end s with None => Ok None | Some e => rparen_after debug t tok_end kind fuel e end) as [r| |]; cbn [bind] in *; try discriminate.
  now rewrite R.
Qed.
Lemma for_l o s p : neat_for t s p -> solid (c_start s) ->
  exists l, visit_for w t o s p = Ok (o ++ l) /\ forall op, In op l <-> statement_rule t s op.
Proof.
  intros HN Ss. unfold visit_for, neat_for in *. pose proof (skip_l s) as SK.
  destruct (c_main s) eqn:M; cbn [negb andb] in *; [|exists []; rewrite app_nil_r; split; [reflexivity|]; intros op; split; [intros []|apply SK; reflexivity]].
  destruct (c_compound s) eqn:C; cbn [negb] in *; [|exists []; rewrite app_nil_r; split; [reflexivity|]; intros op; split; [intros []|apply SK; reflexivity]].
  destruct (HN eq_refl eq_refl) as (Hs & FP). now apply maybe_l.
Qed.
Lemma catch_l fuel o s e : length t < fuel -> neat_catch t tok_end kind s e -> solid (c_start s) ->
  exists l, visit_catch w debug t tok_end kind fuel o s e = Ok (o ++ l) /\ forall op, In op l <-> statement_rule t s op.
Proof.
  intros Hf HN Ss. unfold visit_catch, neat_catch in *. pose proof (skip_l s) as SK.
  destruct (c_main s) eqn:M; cbn [negb andb] in *; [|exists []; rewrite app_nil_r; split; [reflexivity|]; intros op; split; [intros []|apply SK; reflexivity]].
  destruct (c_compound s) eqn:C; cbn [negb] in *; [|exists []; rewrite app_nil_r; split; [reflexivity|]; intros op; split; [intros []|apply SK; reflexivity]].
  destruct (HN eq_refl eq_refl) as (e' & p & -> & Hs & FP & HE). cbn [bind].
  destruct (rparen_after_ok w debug t tok_end kind Hw fuel e' p _ Hf HE) as [E|[_ []]]. rewrite E. cbn [bind]. now apply maybe_l.
Qed.

(** ** Functions *)
Lemma operator_l o e : e < length t -> exists l, fix_operator t o e = Ok (o ++ l) /\
  forall op, In op l <-> solid e /\ op = Op InsertAt (N.of_nat e) 0%N [32%N].
Proof.
  intros L. unfold fix_operator, is_white. destruct (nth_error t e) as [c|] eqn:E; [|apply nth_error_None in E; lia].
  rewrite (char_at_some t tok_end kind e c E). cbn [bind]. destruct (white c) eqn:W.
  - exists []. rewrite app_nil_r. split; [reflexivity|]. intros op. split; [intros []|]. intros ((c' & E' & W') & _). congruence.
  - exists [Op InsertAt (N.of_nat e) 0%N [32%N]]. split; [reflexivity|]. intros op. split.
    + intros [<-|[]]. split; [now exists c|reflexivity].
    + intros (_ & ->). now left.
Qed.
Lemma reaches_unique i j j' : reaches t tok_end kind i j -> reaches t tok_end kind i j' -> j = j'.
Proof.
  intros R R'. pose proof (next_token_ok debug t tok_end kind _ _ R (S (length t)) ltac:(lia)) as E.
  rewrite (next_token_ok debug t tok_end kind _ _ R' (S (length t)) ltac:(lia)) in E. now injection E.
Qed.
Definition comma_of (inits : list (option nat)) (op : operation N) : Prop :=
  exists known r rest n, inits = map Some known ++ Some r :: rest /\ reaches t tok_end kind (S r) n /\ kind n = KComma /\ line_of r <> line_of n /\
    (op = Op InsertAfter (N.of_nat r) 0%N [44%N] \/ op = Op Replace (N.of_nat n) 1%N [32%N]).
Lemma comma_nil op : ~ comma_of [] op.
Proof. intros (k & r & rest & n & E & _). destruct k; discriminate. Qed.
Lemma comma_none l op : ~ comma_of (None :: l) op.
Proof. intros (k & r & rest & n & E & _). destruct k; discriminate. Qed.
Lemma comma_cons r l n op : reaches t tok_end kind (S r) n ->
  (comma_of (Some r :: l) op <-> (kind n = KComma /\ line_of r <> line_of n /\
    (op = Op InsertAfter (N.of_nat r) 0%N [44%N] \/ op = Op Replace (N.of_nat n) 1%N [32%N])) \/ comma_of l op).
Proof.
  intros R. split.
  - intros ([|k0 k] & r' & rest & n' & E & R' & K & L & O); cbn in E; injection E as -> ->.
    + rewrite (reaches_unique _ _ _ R R') in *. left. auto.
    + right. exists k, r', rest, n'. auto.
  - intros [(K & L & O)|(k & r' & rest & n' & E & X)].
    + exists [], r, l, n. auto.
    + exists (r :: k), r', rest, n'. split; [cbn; congruence|exact X].
Qed.
Lemma inits_l fuel l : length t < fuel -> (forall r, In (Some r) l -> neat_init t tok_end kind r) -> forall o,
  exists l', fix_inits w debug t tok_end kind fuel o l = Ok (o ++ l') /\ forall op, In op l' <-> comma_of l op.
Proof.
  intros Hf. induction l as [|[r|] l IH]; intros HN o; cbn [fix_inits].
  - exists []. rewrite app_nil_r. split; [reflexivity|]. intros op. split; [intros []|intros H; now apply comma_nil in H].
  - assert (IH' := IH (fun r' H => HN r' (or_intror H))). clear IH.
    destruct (HN r (or_introl eq_refl)) as (C & n & R & K). rewrite (next_token_ok debug t tok_end kind _ _ R) by lia. cbn [bind].
    assert (Skip : ~ (kind n = KComma /\ line_of r <> line_of n) -> exists l', fix_inits w debug t tok_end kind fuel o l = Ok (o ++ l') /\ forall op, In op l' <-> comma_of (Some r :: l) op).
    { intros H. destruct (IH' o) as (l' & E & H'). exists l'. split; [exact E|]. intros op. rewrite H', (comma_cons r l n op R). tauto. }
    destruct (kind n) eqn:Kn; try (apply Skip; intros [X _]; discriminate X). destruct (Nat.eqb_spec (line_of r) (line_of n)) as [El|El]; [apply Skip; tauto|].
    pose proof (reaches_solid t tok_end kind _ _ R) as [Sn _]. pose proof (solid_lt t n Sn) as Ln.
    destruct (IH' (replace w (insert_after o (N.of_nat r) [44%N]) (N.of_nat n) (N.of_nat (S n)) [32%N])) as (l' & E & H).
    rewrite E. exists ([Op InsertAfter (N.of_nat r) 0%N [44%N]; Op Replace (N.of_nat n) 1%N [32%N]] ++ l'). split.
    + f_equal. unfold replace, insert_after. rewrite (usub_exact w t tok_end kind Hw) by lia. replace (S n - n) with 1 by lia. rewrite <- !app_assoc. reflexivity.
    + intros op. rewrite (comma_cons r l n op R), in_app_iff, H. cbn [In]. intuition.
  - exists []. rewrite app_nil_r. split; [reflexivity|]. intros op. split; [intros []|intros H; now apply comma_none in H].
Qed.
Lemma blank_dec b rb : solid b -> solid rb -> b < rb -> tok_end b = S b ->
  (empty_between debug t tok_end b rb = Ok true /\ blank (S b) rb) \/ (empty_between debug t tok_end b rb = Ok false /\ ~ blank (S b) rb).
Proof.
  intros Sb Sr L T. pose proof (solid_lt t rb Sr). unfold empty_between. rewrite (skip_token_ok debug t tok_end kind b Sb). cbn [bind]. rewrite T.
  destruct (skip_white t (S b)) as [i| |] eqn:E; cbn [bind];
    [|unfold skip_white in E; destruct (Nat.leb_spec (S b) (length t)); [discriminate|lia]..].
  destruct (Nat.eqb_spec i rb) as [->|N].
  - left. split; [reflexivity|]. now apply (skip_white_inv w t tok_end kind Hw) in E.
  - right. split; [reflexivity|]. intros B. apply N. rewrite (skip_white_ok t tok_end kind (S b) rb) in E by (auto; lia). now injection E.
Qed.
Lemma empty_l o b br last (fc : bool) : solid b -> neat_braces t tok_end b br last ->
  exists l c, fix_empty w debug t tok_end o b br last fc = Ok (o ++ l, c) /\
    (forall op, In op l <-> fc = false /\ exists rb, br = Some (rb, true) /\ blank (S b) rb /\ ~ (line_of last = line_of b /\ line_of b = line_of rb) /\
      op = Op Remove (N.of_nat (S b)) (N.of_nat (rb - S b)) []) /\
    (c = true <-> fc = false /\ exists rb, br = Some (rb, true) /\ blank (S b) rb /\ line_of last = line_of b /\ line_of b <> line_of rb).
Proof.
  intros S HN. unfold fix_empty.
  assert (Z : forall P : Prop, (P -> False) -> (fc = false -> forall rb, br = Some (rb, true) -> blank (Datatypes.S b) rb -> line_of last = line_of b /\ line_of b = line_of rb) ->
    exists l c, Ok (o, false) = Ok (o ++ l, c) /\
    (forall op, In op l <-> fc = false /\ exists rb, br = Some (rb, true) /\ blank (Datatypes.S b) rb /\ ~ (line_of last = line_of b /\ line_of b = line_of rb) /\
      op = Op Remove (N.of_nat (Datatypes.S b)) (N.of_nat (rb - Datatypes.S b)) []) /\
    (c = true <-> fc = false /\ exists rb, br = Some (rb, true) /\ blank (Datatypes.S b) rb /\ line_of last = line_of b /\ line_of b <> line_of rb)).
  { intros P _ H. exists [], false. rewrite app_nil_r. split; [reflexivity|]. split.
    - intros op. split; [intros []|]. intros (F & rb & E & B & N & _). destruct (N (H F rb E B)).
    - split; [discriminate|]. intros (F & rb & E & B & A & C). destruct (H F rb E B). contradiction. }
  destruct fc; [apply (Z False); [tauto|discriminate]|]. destruct br as [[rb [|]]|]; cbn [negb]; try (apply (Z False); [tauto|]; intros _ rb0 X; discriminate X).
  destruct (HN rb eq_refl) as (Sr & L & T & D). pose proof (solid_lt t rb Sr) as Lr.
  destruct (blank_dec b rb S Sr L T) as [[E B]|[E B]]; rewrite E; cbn [bind negb]; [|apply (Z False); [tauto|]; intros _ rb0 [= <-] X; contradiction].
  assert (R : remove w o (N.of_nat (Datatypes.S b)) (N.of_nat rb) = o ++ [Op Remove (N.of_nat (Datatypes.S b)) (N.of_nat (rb - Datatypes.S b)) []]).
  { unfold remove. now rewrite (usub_exact w t tok_end kind Hw) by lia. }
  destruct (Nat.eqb_spec (line_of last) (line_of b)) as [El|El].
  - destruct (Nat.eqb_spec (line_of b) (line_of rb)) as [Er|Er]; [apply (Z False); [tauto|]; intros _ rb0 [= <-] _; auto|].
    exists [Op Remove (N.of_nat (Datatypes.S b)) (N.of_nat (rb - Datatypes.S b)) []], true. rewrite R. split; [reflexivity|]. split.
    + intros op. split; [intros [<-|[]]; split; [reflexivity|]; exists rb; tauto|]. intros (_ & rb0 & [= <-] & _ & _ & ->). now left.
    + split; [|reflexivity]. intros _. split; [reflexivity|]. now exists rb.
  - exists [Op Remove (N.of_nat (Datatypes.S b)) (N.of_nat (rb - Datatypes.S b)) []], false. rewrite R. split; [reflexivity|]. split.
    + intros op. split; [intros [<-|[]]; split; [reflexivity|]; exists rb; tauto|]. intros (_ & rb0 & [= <-] & _ & _ & ->). now left.
    + split; [discriminate|]. intros (_ & rb0 & [= <-] & _ & X & _). contradiction.
Qed.
Lemma first_column_b f tb : (((col_of t tb =? 1) || (col_of t (f_name f) =? 1)) = true) <-> first_column t f tb.
Proof. unfold first_column. rewrite orb_true_iff, !Nat.eqb_eq. tauto. Qed.
Lemma last_unique te l p q : last_alone t te l p -> last_alone t te l q -> p = q.
Proof.
  intros P Q. rewrite <- (last_ok w t tok_end kind Hw l p te) by (destruct P as [[-> P]|P]; [left; auto|right; exact P]).
  apply (last_ok w t tok_end kind Hw l q te). destruct Q as [[-> Q]|Q]; [left; auto|right; exact Q].
Qed.
Lemma leads_unique i b e e' : leads t tok_end i e b -> leads t tok_end i e' b -> e = e'.
Proof.
  intros L L'. pose proof (first_white_ok debug t tok_end kind _ _ _ L (S b) ltac:(lia)) as E.
  rewrite (first_white_ok debug t tok_end kind _ _ _ L' (S b) ltac:(lia)) in E. now injection E.
Qed.

Lemma func_l fuel o seen f : length t < fuel -> neat_func t tok_end kind f -> starts t (NFunc f) ->
  exists l seen', visit_func w debug t tok_end kind fuel (o, seen) f = Ok (o ++ l, seen') /\
    (forall op, In op l <-> wanted (NFunc f) op /\ ~ In (f_start f) seen) /\
    (forall x, In x seen' <-> In x seen \/ complete f /\ x = f_start f).
Proof.
  intros Hf HN ST. unfold visit_func. cbn [StylerRules.wanted starts] in *.
  destruct (f_main f) eqn:Em; cbn [negb].
  2: { exists [], seen. rewrite app_nil_r. split; [reflexivity|]. split; [|intros x; unfold complete; rewrite Em; intuition discriminate].
       intros op. cbn. intuition discriminate. }
  unfold neat_func in HN. destruct (HN Em) as (HO & HB). clear HN.
  destruct (existsb (Nat.eqb (f_start f)) seen) eqn:Es.
  { apply existsb_exists in Es as (x & Hx & E). apply Nat.eqb_eq in E. subst x.
    exists [], seen. rewrite app_nil_r. split; [reflexivity|]. split; [intros op; cbn; tauto|]. intros x. split; [tauto|]. intros [H|[_ ->]]; auto. }
  assert (Hs : ~ In (f_start f) seen).
  { intros H. assert (existsb (Nat.eqb (f_start f)) seen = true); [|congruence]. apply existsb_exists. exists (f_start f). split; [exact H|apply Nat.eqb_refl]. }
  clear Es.
  assert (S1 : exists l1, (match f_operator f with Some e => fix_operator t o e | None => Ok o end) = Ok (o ++ l1) /\ forall op, In op l1 <-> operator_rule t f op).
  { unfold operator_rule. destruct (f_operator f) as [e|].
    - destruct (operator_l o e) as (l & E & H); [destruct (HO e eq_refl); lia|]. exists l. split; [exact E|]. intros op. rewrite H. split.
      + intros [A B]. exists e. auto.
      + intros (e' & [= <-] & A). exact A.
    - exists []. rewrite app_nil_r. split; [reflexivity|]. intros op. split; [intros []|]. intros (e & X & _). discriminate X. }
  destruct S1 as (l1 & E1 & H1). rewrite E1. cbn [bind].
  destruct (f_body f) as [[b br]|] eqn:Eb.
  2: { exists l1, seen. split; [reflexivity|]. split.
       - intros op. rewrite H1. unfold comma_rule, empty_rule, hollow, function_rule, constructor_rule. rewrite Eb. split; [tauto|].
         intros [[_ [H|[[H _]|[H|[H|H]]]]] _]; [exact H|now destruct H|exfalso..].
         + destruct H as (? & ? & ? & ? & ? & _ & (X & _) & _). discriminate X.
         + destruct H as (_ & ? & ? & ? & ? & ? & _ & X & _). discriminate X.
         + destruct H as (? & ? & ? & ? & ? & ? & _ & _ & _ & X & _). discriminate X.
       - intros x. unfold complete. rewrite Eb. tauto. }
  destruct (HB b br eq_refl) as (Sb & HI & HT). clear HB.
  assert (S3 : exists l3, (match f_ctor f with Some l => fix_ctor w debug t tok_end kind fuel (o ++ l1) l | None => Ok (o ++ l1) end)
    = Ok ((o ++ l1) ++ l3) /\ forall op, In op l3 <-> comma_rule t tok_end kind f op).
  { unfold comma_rule. destruct (f_ctor f) as [inits|] eqn:Ec.
    - unfold fix_ctor. destruct (Nat.leb_spec (length inits) 1) as [Li|Li].
      + exists []. rewrite app_nil_r. split; [reflexivity|]. intros op. split; [intros []|]. intros (_ & i & k & r & rest & n & [= <-] & L & _). lia.
      + destruct (inits_l fuel inits Hf (HI inits eq_refl) (o ++ l1)) as (l & E & H). exists l. split; [exact E|]. intros op. rewrite H. split.
        * intros (k & r & rest & n & X). split; [congruence|]. exists inits, k, r, rest, n. split; [reflexivity|]. split; [lia|exact X].
        * intros (_ & i & k & r & rest & n & [= <-] & _ & X). exists k, r, rest, n. exact X.
    - exists []. rewrite app_nil_r. split; [reflexivity|]. intros op. split; [intros []|]. intros (_ & i & ? & ? & ? & ? & X & _). discriminate X. }
  destruct S3 as (l3 & E3 & H3). rewrite E3. cbn [bind].
  destruct (f_type f) as [[tb te]|] eqn:Et.
  2: { exists (l1 ++ l3), seen. rewrite <- app_assoc. split; [reflexivity|]. split.
       - intros op. rewrite in_app_iff, H1, H3. unfold empty_rule, function_rule, constructor_rule. rewrite Et. split; [tauto|].
         intros [[_ [H|[H|[H|[H|H]]]]] _]; [auto|auto|exfalso..].
         + destruct H as (? & ? & ? & ? & ? & X & _). discriminate X.
         + destruct H as (_ & ? & ? & ? & ? & ? & X & _). discriminate X.
         + destruct H as (? & ? & ? & ? & ? & ? & _ & _ & X & _). discriminate X.
       - intros x. unfold complete. rewrite Et. tauto. }
  destruct (HT tb te eq_refl) as (Ltb & HC). clear HT. pose proof (ST tb te eq_refl) as Stb.
  assert (SEEN : forall x, In x (f_start f :: seen) <-> In x seen \/ complete f /\ x = f_start f).
  { intros x. cbn [In]. split; [intros [<-|H]; [right; split; [unfold complete; rewrite Em, Eb, Et; repeat split; congruence|reflexivity]|auto]|].
    intros [H|[_ ->]]; auto. }
  assert (Fin : forall l, (forall op, In op l <-> empty_rule t f op \/ function_rule t tok_end f op \/ constructor_rule t f op) ->
    exists l' seen', Ok (((o ++ l1) ++ l3) ++ l, f_start f :: seen) = Ok (o ++ l', seen') /\
    (forall op, In op l' <-> (true = true /\ (operator_rule t f op \/ comma_rule t tok_end kind f op \/ empty_rule t f op \/ function_rule t tok_end f op \/ constructor_rule t f op)) /\ ~ In (f_start f) seen) /\
    (forall x, In x seen' <-> In x seen \/ complete f /\ x = f_start f)).
  { intros l H. exists (l1 ++ l3 ++ l), (f_start f :: seen). rewrite <- !app_assoc. split; [reflexivity|]. split; [|exact SEEN].
    intros op. rewrite !in_app_iff, H1, H3, H. tauto. }
  pose proof (first_column_b f tb) as FC. set (fc := (col_of t tb =? 1) || (col_of t (f_name f) =? 1)) in *.
  destruct (f_ctor f) as [inits|] eqn:Ec.
  - destruct inits as [|i0 inits].
    + destruct (Fin []) as (l' & s' & E & R); [|exists l', s'; split; [rewrite <- E; now rewrite app_nil_r|exact R]].
      intros op. split; [intros []|]. intros [H|[H|H]].
      * destruct H as (? & ? & ? & ? & ? & _ & _ & X & _). unfold last_paren in X. rewrite Ec in X. tauto.
      * destruct H as (X & _). congruence.
      * destruct H as (? & ? & ? & ? & ? & ? & X & Y & _). congruence.
    + destruct HC as (p & HL & HBr & HG). rewrite (last_ok w t tok_end kind Hw (i0 :: inits) p te); [|destruct HL as [[-> HL]|HL]; [left; auto|right; exact HL]].
      destruct (empty_l ((o ++ l1) ++ l3) b br p fc Sb HBr) as (l2 & c & E2 & H2 & _). rewrite E2. cbn [bind].
      assert (HE : forall op, In op l2 <-> empty_rule t f op).
      { intros op. rewrite H2. unfold empty_rule, hollow, last_paren. rewrite Ec. split.
        - intros (F & rb & -> & B & N & O). exists tb, te, b, rb, p. split; [exact Et|]. split; [split; [exact Eb|split; [intros X; apply FC in X; congruence|exact B]]|].
          split; [split; [discriminate|exact HL]|]. split; [exact N|exact O].
        - intros (tb' & te' & b' & rb & p' & Y & (X & F & B) & (_ & L') & N & O). rewrite Et in Y. injection Y as <- <-. rewrite Eb in X. injection X as <- ->.
          rewrite (last_unique te _ p' p L' HL) in *. split; [destruct fc; [destruct F; now apply FC|reflexivity]|]. exists rb. auto. }
      assert (NF : forall op, ~ function_rule t tok_end f op) by (intros op (X & _); congruence).
      destruct ((line_of p =? line_of b) && negb (line_of te =? line_of b)) eqn:C.
      * apply andb_prop in C as [C1 C2]. apply Nat.eqb_eq in C1. apply negb_true_iff, Nat.eqb_neq in C2. destruct (HG C1 C2) as [G1 G2].
        unfold split_brace_after. destruct (split_l (((o ++ l1) ++ l3) ++ l2) tb (S p) b Stb ltac:(lia) Sb) as (op4 & E4 & H4). rewrite E4. cbn [bind].
        destruct (Fin (l2 ++ [op4])) as (l' & s' & E & R); [|exists l', s'; split; [rewrite <- E; now rewrite <- !app_assoc|exact R]].
        intros op. rewrite in_app_iff, HE. cbn [In]. assert (X : constructor_rule t f op <-> op = op4).
        { rewrite <- H4. split.
          - intros (i & tb' & te' & b' & br' & p' & A1 & _ & A2 & A3 & A4 & A5 & A6 & A7). rewrite Ec in A1. injection A1 as <-. rewrite Et in A2. injection A2 as <- <-.
            rewrite Eb in A3. injection A3 as <- <-. now rewrite (last_unique te _ p' p A4 HL) in A7.
          - intros O. exists (i0 :: inits), tb, te, b, br, p. split; [exact Ec|]. split; [discriminate|]. auto 8. }
        specialize (NF op). intuition.
      * destruct (Fin l2) as (l' & s' & E & R); [|exists l', s'; split; [exact E|exact R]].
        intros op. rewrite HE. assert (X : ~ constructor_rule t f op).
        { intros (i & tb' & te' & b' & br' & p' & A1 & _ & A2 & A3 & A4 & A5 & A6 & A7). rewrite Ec in A1. injection A1 as <-. rewrite Et in A2. injection A2 as <- <-.
          rewrite Eb in A3. injection A3 as <- <-. rewrite (last_unique te _ p' p A4 HL) in A5. apply andb_false_iff in C as [C|C]; [apply Nat.eqb_neq in C; contradiction|].
          apply negb_false_iff, Nat.eqb_eq in C. contradiction. }
        specialize (NF op). tauto.
  - destruct HC as (HBr & HG).
    destruct (empty_l ((o ++ l1) ++ l3) b br te fc Sb HBr) as (l2 & c & E2 & H2 & Hc). rewrite E2. cbn [bind].
    assert (HE : forall op, In op l2 <-> empty_rule t f op).
    { intros op. rewrite H2. unfold empty_rule, hollow, last_paren. rewrite Ec. split.
      - intros (F & rb & -> & B & N & O). exists tb, te, b, rb, te. split; [exact Et|]. split; [split; [exact Eb|split; [intros X; apply FC in X; congruence|exact B]]|].
        split; [reflexivity|]. split; [exact N|exact O].
      - intros (tb' & te' & b' & rb & p' & Y & (X & F & B) & -> & N & O). rewrite Et in Y. injection Y as <- <-. rewrite Eb in X. injection X as <- ->.
        split; [destruct fc; [destruct F; now apply FC|reflexivity]|]. exists rb. auto. }
    assert (NC : forall op, ~ constructor_rule t f op) by (intros op (? & ? & ? & ? & ? & ? & X & _); congruence).
    assert (HJ : line_of te = line_of b -> (c = true <-> exists rb, hollow t f tb b rb /\ line_of b <> line_of rb)).
    { intros El. rewrite Hc. unfold hollow. split.
      - intros (F & rb & -> & B & _ & N). exists rb. split; [|exact N]. split; [exact Eb|]. split; [intros X; apply FC in X; congruence|exact B].
      - intros (rb & (X & F & B) & N). rewrite Eb in X. injection X as ->. split; [destruct fc; [destruct F; now apply FC|reflexivity]|]. exists rb. auto. }
    destruct (negb c && (fc || negb (line_of tb =? line_of te)) && (line_of te =? line_of b)) eqn:C.
    + apply andb_prop in C as [C3 C2]. apply andb_prop in C3 as [C1 C3]. apply Nat.eqb_eq in C2. apply negb_true_iff in C1. destruct (HG C2) as (e & L).
      destruct (leads_gap t tok_end kind _ _ _ L) as (G1 & G2 & G3 & G4).
      rewrite (first_white_ok debug t tok_end kind te e b L) by (pose proof (solid_lt t b Sb); lia). cbn [bind].
      destruct (split_l (((o ++ l1) ++ l3) ++ l2) tb e b Stb ltac:(lia) Sb) as (op4 & E4 & H4). rewrite E4. cbn [bind].
      destruct (Fin (l2 ++ [op4])) as (l' & s' & E & R); [|exists l', s'; split; [rewrite <- E; now rewrite <- !app_assoc|exact R]].
      intros op. rewrite in_app_iff, HE. cbn [In]. assert (X : function_rule t tok_end f op <-> op = op4).
      { rewrite <- H4. split.
        - intros (_ & tb' & te' & b' & br' & e' & A2 & A3 & A4 & A5 & A6 & A7 & A8). rewrite Et in A2. injection A2 as <- <-.
          rewrite Eb in A3. injection A3 as <- <-. now rewrite (leads_unique te b e' e A7 L) in A8.
        - intros O. split; [exact Ec|]. exists tb, te, b, br, e. split; [exact Et|]. split; [exact Eb|]. split.
          { apply orb_prop in C3 as [C3|C3]; [left; now apply FC|right]. now apply negb_true_iff, Nat.eqb_neq in C3. }
          split; [exact C2|]. split; [intros X; apply (HJ C2) in X; congruence|]. auto. }
      specialize (NC op). intuition.
    + destruct (Fin l2) as (l' & s' & E & R); [|exists l', s'; split; [exact E|exact R]].
      intros op. rewrite HE. assert (X : ~ function_rule t tok_end f op).
      { intros (_ & tb' & te' & b' & br' & e' & A2 & A3 & A4 & A5 & A6 & _). rewrite Et in A2. injection A2 as <- <-. rewrite Eb in A3. injection A3 as <- <-.
        destruct (Nat.eqb_spec (line_of te) (line_of b)); [|contradiction]. rewrite andb_true_r in C. apply andb_false_iff in C as [C|C].
        - apply negb_false_iff in C. apply (HJ A5) in C. contradiction.
        - apply orb_false_iff in C as [C1 C2]. apply negb_false_iff, Nat.eqb_eq in C2. destruct A4 as [A4|A4]; [apply FC in A4; congruence|contradiction]. }
      specialize (NC op). tauto.
Qed.

Definition seen_by (prev : list node) (seen : list nat) : Prop := forall x, In x seen <-> exists f, In (NFunc f) prev /\ complete f /\ x = f_start f.
Lemma visit_l fuel o seen prev n : length t < fuel -> neat n -> starts t n -> seen_by prev seen ->
  exists l seen', visit w debug t tok_end kind fuel (o, seen) n = Ok (o ++ l, seen') /\ seen_by (n :: prev) seen' /\
    forall op, In op l <-> wanted n op /\ ~ exists m, In m prev /\ again m n.
Proof.
  intros Hf HN ST SB.
  assert (Stm : (forall f, n <> NFunc f) -> seen_by (n :: prev) seen /\ ~ exists m, In m prev /\ again m n).
  { intros X. split.
    - intros x. rewrite (SB x). split; intros (f & H & C).
      + exists f. split; [now right|exact C].
      + destruct H as [H|H]; [destruct (X f H)|]. now exists f.
    - intros (m & _ & f & g & _ & E & _). exact (X g E). }
  destruct n as [s|s p|s e|f]; cbn [visit fst snd StylerSpec.neat starts StylerRules.wanted] in *.
  - destruct (cond_l fuel o s Hf HN ST) as (l & E & H). destruct Stm as [A B]; [discriminate|]. exists l, seen. rewrite E. split; [reflexivity|]. split; [exact A|]. intros op. rewrite H. tauto.
  - destruct (for_l o s p HN ST) as (l & E & H). destruct Stm as [A B]; [discriminate|]. exists l, seen. rewrite E. split; [reflexivity|]. split; [exact A|]. intros op. rewrite H. tauto.
  - destruct (catch_l fuel o s e Hf HN ST) as (l & E & H). destruct Stm as [A B]; [discriminate|]. exists l, seen. rewrite E. split; [reflexivity|]. split; [exact A|]. intros op. rewrite H. tauto.
  - clear Stm. destruct (func_l fuel o seen f Hf HN ST) as (l & s' & E & H & HS). exists l, s'. split; [exact E|]. split.
    + intros x. rewrite HS, (SB x). split.
      * intros [(g & G & C)|[C ->]]; [exists g; split; [now right|exact C]|]. exists f. split; [now left|auto].
      * intros (g & [[= <-]|G] & C & ->); [right; auto|]. left. now exists g.
    + intros op. rewrite H. cbn [StylerRules.wanted].
      assert (X : In (f_start f) seen <-> exists m, In m prev /\ again m (NFunc f)); [|tauto].
      rewrite (SB (f_start f)). split.
      * intros (g & G & (C1 & C2 & C3) & E'). exists (NFunc g). split; [exact G|]. exists g, f. auto 8.
      * intros (m & G & g & f' & -> & [= <-] & E' & C1 & C2 & C3). exists g. repeat split; auto.
Qed.
Lemma visit_all_l fuel : length t < fuel -> forall ns prev o seen, Forall neat ns -> Forall (starts t) ns -> seen_by prev seen ->
  exists l seen', visit_all w debug t tok_end kind fuel (o, seen) ns = Ok (o ++ l, seen') /\
    forall op, In op l <-> exists bef n aft, ns = bef ++ n :: aft /\ wanted n op /\ ~ exists m, (In m prev \/ In m bef) /\ again m n.
Proof.
  intros Hf. induction ns as [|n ns IH]; intros prev o seen HN HS SB; cbn [visit_all].
  - exists [], seen. rewrite app_nil_r. split; [reflexivity|]. intros op. split; [intros []|]. intros (bef & m & aft & E & _). destruct bef; discriminate E.
  - inversion HN as [|? ? N1 N2]; subst. inversion HS as [|? ? X1 X2]; subst.
    destruct (visit_l fuel o seen prev n Hf N1 X1 SB) as (l1 & s1 & E1 & B1 & H1). rewrite E1. cbn [bind].
    destruct (IH (n :: prev) (o ++ l1) s1 N2 X2 B1) as (l2 & s2 & E2 & H2). rewrite E2. exists (l1 ++ l2), s2. rewrite <- app_assoc. split; [reflexivity|].
    intros op. rewrite in_app_iff, H1, H2. split.
    + intros [[W A]|(bef & m & aft & -> & W & A)].
      * exists [], n, ns. split; [reflexivity|]. split; [exact W|]. intros (m & [G|[]] & AG). apply A. now exists m.
      * exists (n :: bef), m, aft. split; [reflexivity|]. split; [exact W|]. intros (k & G & AG). apply A. exists k. split; [|exact AG]. cbn [In] in *. tauto.
    + intros ([|n' bef] & m & aft & E & W & A); cbn in E; injection E as -> ->.
      * left. split; [exact W|]. intros (k & G & AG). apply A. exists k. auto.
      * right. exists bef, m, aft. split; [reflexivity|]. split; [exact W|]. intros (k & G & AG). apply A. exists k. split; [|exact AG]. cbn [In] in *. tauto.
Qed.
End V.
