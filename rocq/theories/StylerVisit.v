From Verif Require Import Base RewriteModel RewriteSpec RewriteProofs RewriteProps StylerModel StylerSpec StylerProofs.
Local Open Scope nat_scope.
Local Open Scope list_scope.

Section V.
Variable w : N.
Variable debug : bool.
Variable t : text.
Variable tok_end : nat -> nat.
Variable kind : nat -> tk.
Hypothesis Hw : (N.of_nat (length t) < 2 ^ w - 1)%N.
Notation solid := (solid t). Notation blank := (blank_between t). Notation line_of := (line_of t).
Notation neat := (neat t tok_end kind). Notation edit_ok := (edit_ok t).

Lemma usub_exact a b : a <= b -> b <= length t -> usub w (N.of_nat b) (N.of_nat a) = N.of_nat (b - a).
Proof.
  intros L B. unfold usub. rewrite (N.mod_small (N.of_nat a)) by lia.
  replace (N.of_nat b + (2 ^ w - N.of_nat a))%N with (N.of_nat (b - a) + 1 * 2 ^ w)%N by lia. rewrite N.mod_add by lia. apply N.mod_small. lia.
Qed.
Lemma blank_le_solid a b : blank a b -> solid b -> b <= length t.
Proof. intros _ S. pose proof (solid_lt t b S). lia. Qed.

(** splitBrace over a gap. *)
Lemma split_brace_ok o line a b : line <= length t -> a < b -> blank a b -> solid b ->
  exists x, split_brace w t o line a b = Ok (o ++ all_ops [EGap a b x true]) /\ edit_ok (EGap a b x true).
Proof.
  intros L H B S. destruct (indent_ok t tok_end kind line L) as (ind & Ei & W). pose proof (solid_lt t b S).
  exists (NL :: ind). split.
  - unfold split_brace. rewrite Ei. cbn [bind]. unfold replace. cbn [all_ops flat_map ops_of app]. rewrite usub_exact by lia. reflexivity.
  - cbn. repeat split; auto. intros c [<-|Hc]; [reflexivity|auto].
Qed.
Definition good (n : node) (es : list edit) : Prop := Forall edit_ok es /\ NoDup (map anchor es) /\ incl (map anchor es) (places n).

Lemma maybe_split_ok o line p b : line <= length t -> S p < b -> blank (S p) b -> solid b ->
  exists es, maybe_split_brace w t o line p b = Ok (o ++ all_ops es) /\ Forall edit_ok es /\ (map anchor es = [] \/ map anchor es = [b]).
Proof.
  intros L H B Sb. unfold maybe_split_brace.
  destruct (line_of line =? line_of p); [exists []; rewrite app_nil_r; auto|].
  destruct (negb _); [exists []; rewrite app_nil_r; auto|].
  unfold split_brace_after. destruct (split_brace_ok o line (S p) b L H B Sb) as (x & E & G). exists [EGap (S p) b x true]. auto.
Qed.
Lemma one_good n (b : nat) es : In b (places n) -> Forall edit_ok es -> (map anchor es = [] \/ map anchor es = [b]) -> good n es.
Proof.
  intros I F [E|E]; (split; [exact F|]); rewrite E; (split; [repeat constructor; auto|]).
  - intros x [].
  - intros x [<-|[]]. exact I.
Qed.

Lemma rparen_after_ok fuel e p D : length t < fuel -> paren_is t tok_end kind e p D ->
  rparen_after debug t tok_end kind fuel e = Ok (Some p) \/ (rparen_after debug t tok_end kind fuel e = Ok None /\ D).
Proof.
  intros Hf (S & T & q & R & K). unfold rparen_after. rewrite (skip_token_ok debug t tok_end kind e S). cbn [bind].
  rewrite (next_token_ok debug t tok_end kind _ _ R) by lia. cbn [bind]. destruct K as [[K ->]|[K HD]]; rewrite K; [left|right; auto].
  cbn. unfold assert_. now rewrite andb_false_r.
Qed.
Lemma cond_ok fuel o s : length t < fuel -> neat_cond t tok_end kind s ->
  exists es, handle_cond w debug t tok_end kind fuel o s = Ok (o ++ all_ops es) /\ good (NCond s) es.
Proof.
  intros Hf HN. unfold handle_cond, neat_cond in *.
  assert (Z : exists es, Ok o = Ok (o ++ all_ops es) /\ good (NCond s) es).
  { exists []. rewrite app_nil_r. split; [reflexivity|]. split; [constructor|]. split; [constructor|]. intros x []. }
  destruct (c_main s); [|exact Z]. destruct (c_compound s); [|exact Z]. cbn [negb].
  destruct (HN eq_refl eq_refl) as (p & Hs & P & HE). pose proof P as (Pc & Lp & B & Pb).
  assert (G : forall r, (r = Some p \/ r = None) ->
     exists es, (do r <- match r with None => rparen_back t (c_start s) (c_body s) | Some p => Ok (Some p) end;
       match r with None => Ok o | Some p => maybe_split_brace w t o (c_start s) p (c_body s) end) = Ok (o ++ all_ops es) /\ good (NCond s) es).
  { intros r Hr.
    assert (E : (match r with None => rparen_back t (c_start s) (c_body s) | Some p => Ok (Some p) end) = Ok (Some p)).
    { destruct Hr as [-> | ->]; [reflexivity|]. now apply (rparen_back_ok t tok_end kind). }
    rewrite E. cbn [bind]. pose proof (solid_lt t _ (brace_solid _ _ Pb)).
    destruct (maybe_split_ok o (c_start s) p (c_body s) ltac:(lia) Lp B (brace_solid _ _ Pb)) as (es & E1 & F & A).
    exists es. split; [exact E1|]. apply (one_good _ (c_body s)); auto. cbn. auto. }
  destruct (c_end s) as [e|]; [|apply (G None); auto].
  destruct (rparen_after_ok fuel e p _ Hf HE) as [E|[E _]]; rewrite E; cbn [bind]; [apply (G (Some p))|apply (G None)]; auto.
Qed.
Lemma for_ok o s p : neat_for t s p -> exists es, visit_for w t o s p = Ok (o ++ all_ops es) /\ good (NFor s p) es.
Proof.
  intros HN. unfold visit_for, neat_for in *.
  assert (Z : exists es, Ok o = Ok (o ++ all_ops es) /\ good (NFor s p) es).
  { exists []. rewrite app_nil_r. split; [reflexivity|]. split; [constructor|]. split; [constructor|]. intros x []. }
  destruct (c_main s); [|exact Z]. destruct (c_compound s); [|exact Z]. cbn [negb].
  destruct (HN eq_refl eq_refl) as (Hs & (Pc & Lp & B & Pb)).
  destruct (maybe_split_ok o (c_start s) p (c_body s) ltac:(lia) Lp B (brace_solid _ _ Pb)) as (es & E1 & F & A).
  exists es. split; [exact E1|]. apply (one_good _ (c_body s)); auto. cbn. auto.
Qed.
Lemma catch_ok fuel o s e : length t < fuel -> neat_catch t tok_end kind s e ->
  exists es, visit_catch w debug t tok_end kind fuel o s e = Ok (o ++ all_ops es) /\ good (NCatch s e) es.
Proof.
  intros Hf HN. unfold visit_catch, neat_catch in *.
  assert (Z : exists es, Ok o = Ok (o ++ all_ops es) /\ good (NCatch s e) es).
  { exists []. rewrite app_nil_r. split; [reflexivity|]. split; [constructor|]. split; [constructor|]. intros x []. }
  destruct (c_main s); [|exact Z]. destruct (c_compound s); [|exact Z]. cbn [negb].
  destruct (HN eq_refl eq_refl) as (e' & p & -> & Hs & (Pc & Lp & B & Pb) & HE). cbn [bind].
  destruct (rparen_after_ok fuel e' p _ Hf HE) as [E|[_ []]]. rewrite E. cbn [bind].
  destruct (maybe_split_ok o (c_start s) p (c_body s) ltac:(lia) Lp B (brace_solid _ _ Pb)) as (es & E1 & F & A).
  exists es. split; [exact E1|]. apply (one_good _ (c_body s)); auto. cbn. auto.
Qed.

(** ** Functions *)
Lemma skip_white_inv i j : skip_white t i = Ok j -> i <= j /\ blank i j.
Proof.
  unfold skip_white. destruct (Nat.leb_spec i (length t)); [|discriminate]. intros [= <-]. split; [lia|]. intros k c Hk E.
  apply (white_run_white (skipn i t)). apply (nth_error_In _ (k - i)).
  assert (X : nth_error (skipn i t) (k - i) = Some c) by (rewrite nth_skipn; replace (i + (k - i)) with k by lia; exact E).
  rewrite <- X. clear - Hk. assert (k - i < white_run (skipn i t)) by lia. revert H. generalize (skipn i t) (white_run (skipn i t)) (k - i).
  intros l n m Hm. revert n m Hm. induction l as [|x l IH]; intros [|n] [|m] Hm; cbn; try lia; try reflexivity. apply IH. lia.
Qed.
Lemma line_succ i : solid i -> line_of (S i) = line_of i.
Proof.
  intros (c & E & W). unfold StylerModel.line_of. f_equal. revert E. generalize t. induction i as [|i IH]; intros l E; destruct l as [|d l]; try discriminate.
  - cbn in E. injection E as ->. cbn. destruct (N.eq_dec c NL) as [->|]; [discriminate|reflexivity].
  - cbn [firstn count_occ nth_error] in *. destruct (N.eq_dec d NL); [f_equal|]; apply IH; exact E.
Qed.
Lemma operator_ok o e : 0 < e < length t -> nth_error t (e - 1) = Some 114%N ->
  exists es, fix_operator t o e = Ok (o ++ all_ops es) /\ Forall edit_ok es /\ (map anchor es = [] \/ map anchor es = [e]).
Proof.
  intros L P. unfold fix_operator, is_white. destruct (nth_error t e) as [c|] eqn:E; [|apply nth_error_None in E; lia].
  rewrite (char_at_some t tok_end kind e c E). cbn [bind]. destruct (white c) eqn:W.
  - exists []. rewrite app_nil_r. auto.
  - exists [EIns e]. unfold insert_at. cbn [all_ops flat_map ops_of app]. split; [reflexivity|]. split; [|auto].
    constructor; [|constructor]. cbn. split; [exists c; auto|]. split; [lia|exact P].
Qed.
Definition rparens (l : list (option nat)) : list nat := flat_map (fun x => match x with Some r => [r] | None => [] end) l.
Lemma in_rparens r l : In r (rparens l) <-> In (Some r) l.
Proof.
  unfold rparens. rewrite in_flat_map. split.
  - intros ([x|] & Hx & H); [|destruct H]. destruct H as [<-|[]]. exact Hx.
  - intros H. exists (Some r). split; [exact H|now left].
Qed.
Lemma inits_ok fuel l : length t < fuel -> (forall r, In (Some r) l -> neat_init t tok_end kind r) -> NoDup (rparens l) -> forall o,
  exists es, fix_inits w debug t tok_end kind fuel o l = Ok (o ++ all_ops es) /\ Forall edit_ok es /\ NoDup (map anchor es) /\ incl (map anchor es) (rparens l).
Proof.
  intros Hf. induction l as [|[r|] l IH]; intros HN ND o; cbn [fix_inits].
  - exists []. rewrite app_nil_r. split; [reflexivity|]. split; [constructor|]. split; [constructor|]. intros x [].
  - cbn [rparens flat_map app] in ND. inversion ND as [|? ? N1 N2]; subst. fold (rparens l) in N1, N2.
    assert (IH' := IH (fun r' H => HN r' (or_intror H)) N2). clear IH.
    destruct (HN r (or_introl eq_refl)) as (C & n & R & K). rewrite (next_token_ok debug t tok_end kind _ _ R) by lia. cbn [bind].
    assert (Skip : exists es, fix_inits w debug t tok_end kind fuel o l = Ok (o ++ all_ops es) /\ Forall edit_ok es /\ NoDup (map anchor es) /\ incl (map anchor es) (rparens (Some r :: l))).
    { destruct (IH' o) as (es & E & F & D & I). exists es. repeat split; auto. intros x Hx. cbn [rparens flat_map app]. right. apply I, Hx. }
    destruct (kind n) eqn:Kn; try exact Skip. destruct (Nat.eqb_spec (line_of r) (line_of n)) as [El|El]; [exact Skip|].
    destruct (K eq_refl) as (Cn & [Bad|B]); [contradiction|].
    pose proof (solid_lt t n (comma_solid _ _ Cn)) as Ln.
    destruct (IH' (replace w (insert_after o (N.of_nat r) [44%N]) (N.of_nat n) (N.of_nat (S n)) [32%N])) as (es & E & F & D & I).
    rewrite E. exists (EComma r n :: es). split; [|split; [|split]].
    + f_equal. unfold replace, insert_after. rewrite usub_exact by lia. replace (S n - n) with 1 by lia. cbn [all_ops flat_map ops_of app].
      rewrite <- !app_assoc. reflexivity.
    + constructor; [|exact F]. cbn. repeat split; auto. destruct (reaches_solid t tok_end kind _ _ R). lia.
    + cbn [map anchor]. constructor; [|exact D]. intros Hin. apply N1, I, Hin.
    + cbn [map anchor rparens flat_map app]. intros x [<-|Hx]; [now left|]. right. apply I, Hx.
  - exists []. rewrite app_nil_r. split; [reflexivity|]. split; [constructor|]. split; [constructor|]. intros x [].
Qed.
Lemma ctor_ok fuel l : length t < fuel -> (forall r, In (Some r) l -> neat_init t tok_end kind r) -> NoDup (rparens l) -> forall o,
  exists es, fix_ctor w debug t tok_end kind fuel o l = Ok (o ++ all_ops es) /\ Forall edit_ok es /\ NoDup (map anchor es) /\ incl (map anchor es) (rparens l).
Proof.
  intros Hf HN ND o. unfold fix_ctor. destruct (length l <=? 1); [|now apply inits_ok].
  exists []. rewrite app_nil_r. split; [reflexivity|]. split; [constructor|]. split; [constructor|]. intros x [].
Qed.
Lemma empty_ok o b br last fc : solid b -> neat_braces t tok_end b br last ->
  exists es c, fix_empty w debug t tok_end o b br last fc = Ok (o ++ all_ops es, c) /\ Forall edit_ok es /\
    (map anchor es = [] \/ exists rb e, br = Some (rb, e) /\ map anchor es = [rb]).
Proof.
  intros S HN. unfold fix_empty.
  assert (Z : forall c : bool, exists es c', Ok (o, c) = Ok (o ++ all_ops es, c') /\ Forall edit_ok es /\
    (map anchor es = [] \/ exists rb e, br = Some (rb, e) /\ map anchor es = [rb])).
  { intros c. exists [], c. rewrite app_nil_r. auto. }
  destruct fc; [apply Z|]. destruct br as [[rb [|]]|]; cbn [negb]; try apply Z.
  destruct (HN rb eq_refl) as (Sr & L & T & D). unfold empty_between. rewrite (skip_token_ok debug t tok_end kind b S). cbn [bind]. rewrite T.
  pose proof (solid_lt t rb Sr) as Lr.
  destruct (skip_white t (Datatypes.S b)) as [i| |] eqn:E; cbn [bind].
  2: { unfold skip_white in E. destruct (Nat.leb_spec (Datatypes.S b) (length t)); [discriminate|lia]. }
  2: { unfold skip_white in E. destruct (Nat.leb_spec (Datatypes.S b) (length t)); discriminate. }
  destruct (Nat.eqb_spec i rb) as [->|]; cbn [negb]; [|apply Z]. apply skip_white_inv in E as [E1 E2].
  assert (G : forall c : bool, Datatypes.S b < rb -> exists es c', Ok (remove w o (N.of_nat (Datatypes.S b)) (N.of_nat rb), c) = Ok (o ++ all_ops es, c') /\ Forall edit_ok es /\
    (map anchor es = [] \/ exists rb0 e, Some (rb, true) = Some (rb0, e) /\ map anchor es = [rb0])).
  { intros c Lt. exists [EGap (Datatypes.S b) rb [] false], c. unfold remove. rewrite usub_exact by lia. cbn [all_ops flat_map ops_of app].
    split; [reflexivity|]. split; [|right; exists rb, true; auto]. constructor; [|constructor]. cbn. repeat split; auto; intros c0 []. }
  destruct (Nat.eqb_spec (line_of last) (line_of b)) as [El|El].
  - destruct (Nat.eqb_spec (line_of b) (line_of rb)) as [Er|Er]; [apply Z|]. apply G.
    destruct (Nat.eq_dec (Datatypes.S b) rb) as [X|X]; [|lia]. exfalso. apply Er. rewrite <- X. symmetry. now apply line_succ.
  - apply G. destruct D; [assumption|contradiction].
Qed.
Lemma last_ok l p : forall acc,
  (acc = p /\ forall r, In (Some r) l -> line_of r <= line_of p) \/
  (In (Some p) l /\ line_of acc < line_of p /\ forall r, In (Some r) l -> r = p \/ line_of r < line_of p) ->
  last_rparen t acc l = p.
Proof.
  induction l as [|[r|] l IH]; intros acc H; cbn [last_rparen].
  - destruct H as [[-> _]|[[] _]]. reflexivity.
  - apply IH. destruct H as [[-> H]|(I & L & H)].
    + left. pose proof (H r (or_introl eq_refl)). destruct (Nat.ltb_spec (line_of p) (line_of r)); [lia|]. split; [reflexivity|]. intros r' Hr. apply H. now right.
    + destruct (H r (or_introl eq_refl)) as [->|Lr].
      * left. destruct (Nat.ltb_spec (line_of acc) (line_of p)); [|lia]. split; [reflexivity|]. intros r' Hr. destruct (H r' (or_intror Hr)) as [->|]; lia.
      * right. destruct I as [I|I]; [injection I as ->; lia|]. split; [exact I|]. split; [destruct (_ <? _); lia|]. intros r' Hr. apply H. now right.
  - apply IH. destruct H as [[-> H]|(I & L & H)]; [left|right].
    + split; [reflexivity|]. intros r' Hr. apply H. now right.
    + destruct I as [I|I]; [discriminate|]. repeat split; auto. intros r' Hr. apply H. now right.
Qed.

Lemma opt_split_ok (c : bool) o line a b : line <= length t -> (c = true -> a < b /\ blank a b) -> solid b ->
  exists es, (if c then split_brace w t o line a b else Ok o) = Ok (o ++ all_ops es) /\ Forall edit_ok es /\ (map anchor es = [] \/ map anchor es = [b]).
Proof.
  intros L H S. destruct c; [|exists []; rewrite app_nil_r; auto]. destruct (H eq_refl) as [H1 H2].
  destruct (split_brace_ok o line a b L H1 H2 S) as (x & E & F). exists [EGap a b x true]. auto.
Qed.
Definition complete (f : func) : Prop := f_main f = true /\ f_body f <> None /\ f_type f <> None.
Lemma all_ops_app a b : all_ops (a ++ b) = all_ops a ++ all_ops b.
Proof. apply flat_map_app. Qed.

Lemma func_ok fuel o seen f : length t < fuel -> neat_func t tok_end kind f -> NoDup (places (NFunc f)) ->
  exists es seen', visit_func w debug t tok_end kind fuel (o, seen) f = Ok (o ++ all_ops es, seen') /\ good (NFunc f) es /\
    (In (f_start f) seen -> es = []) /\ incl seen seen' /\ (complete f -> In (f_start f) seen').
Proof.
  intros Hf HN ND. unfold visit_func.
  assert (Z : forall s, incl seen s -> (complete f -> In (f_start f) s) -> exists es seen', Ok (o, s) = Ok (o ++ all_ops es, seen') /\ good (NFunc f) es /\
    (In (f_start f) seen -> es = []) /\ incl seen seen' /\ (complete f -> In (f_start f) seen')).
  { intros s I C. exists [], s. rewrite app_nil_r. repeat split; auto; [constructor..|]. intros x []. }
  unfold neat_func in HN. destruct (f_main f) eqn:Em; cbn [negb]; [|apply Z; [apply incl_refl|intros (C & _); congruence]].
  destruct (HN eq_refl) as (HO & HB). clear HN.
  destruct (existsb (Nat.eqb (f_start f)) seen) eqn:Es.
  { apply Z; [apply incl_refl|]. intros _. apply existsb_exists in Es as (x & Hx & E). apply Nat.eqb_eq in E. now subst. }
  assert (Hs : ~ In (f_start f) seen).
  { intros H. assert (existsb (Nat.eqb (f_start f)) seen = true); [|congruence]. apply existsb_exists. exists (f_start f). split; [exact H|apply Nat.eqb_refl]. }
  clear Es Z.
  (* operator *)
  assert (S1 : exists es1, (match f_operator f with Some e => fix_operator t o e | None => Ok o end) = Ok (o ++ all_ops es1) /\ Forall edit_ok es1 /\
    NoDup (map anchor es1) /\ incl (map anchor es1) (match f_operator f with Some e => [e] | None => [] end)).
  { destruct (f_operator f) as [e|].
    - destruct (HO e eq_refl) as [L P]. destruct (operator_ok o e L P) as (es & E & F & A). exists es. rewrite E. split; [reflexivity|]. split; [exact F|].
      destruct A as [-> | ->]; (split; [repeat constructor; auto|]); [intros x []|apply incl_refl].
    - exists []. rewrite app_nil_r. split; [reflexivity|]. split; [constructor|]. split; [constructor|]. intros x []. }
  destruct S1 as (es1 & E1 & F1 & D1 & I1). rewrite E1. cbn [bind].
  cbn [places] in ND. unfold good. cbn [places].
  set (P1 := match f_operator f with Some e => [e] | None => [] end) in *.
  set (P3 := match f_ctor f with Some l => flat_map (fun x => match x with Some r => [r] | None => [] end) l | None => [] end) in *.
  destruct (f_body f) as [[b br]|] eqn:Eb.
  2: { exists es1, seen. split; [reflexivity|]. split; [|split; [tauto|split; [apply incl_refl|intros (_ & C & _); congruence]]].
       split; [exact F1|]. split; [exact D1|]. intros x Hx. apply in_or_app. left. auto. }
  destruct (HB b br eq_refl) as (Sb & HI & HT). clear HB.
  set (P2 := match br with Some (rb, _) => [b; rb] | None => [b] end).
  assert (EP2 : match br with Some (rb, _) => [b; rb] | None => [b] end = P2) by reflexivity.
  assert (ND' : NoDup (P1 ++ P2 ++ P3)). { destruct br as [[rb e]|]; exact ND. }
  assert (GP : forall es, Forall edit_ok es -> NoDup (map anchor es) -> incl (map anchor es) (P1 ++ P2 ++ P3) -> 
     Forall edit_ok es /\ NoDup (map anchor es) /\ incl (map anchor es) (P1 ++ P2 ++ P3)).
  { auto. }
  clear ND. rename ND' into ND.
  assert (App : forall l1 l2 : list nat, NoDup (l1 ++ l2) -> NoDup l1 /\ NoDup l2 /\ (forall x, In x l1 -> ~ In x l2)).
  { clear. induction l1 as [|a l1 IH]; intros l2 H; cbn in *; [repeat split; auto; constructor|]. inversion H as [|? ? N1 N2]; subst. destruct (IH l2 N2) as (A & B & C).
    repeat split; auto.
    - constructor; auto. intros X. apply N1, in_or_app. now left.
    - intros x [<-|Hx]; [|auto]. intros X. apply N1, in_or_app. now right. }
  assert (App' : forall l1 l2 : list nat, NoDup l1 -> NoDup l2 -> (forall x, In x l1 -> ~ In x l2) -> NoDup (l1 ++ l2)).
  { clear. induction l1 as [|a l1 IH]; intros l2 H1 H2 H; cbn in *; [auto|]. inversion H1; subst. constructor; [|auto].
    intros X. apply in_app_or in X as [X|X]; [contradiction|]. exact (H a (or_introl eq_refl) X). }
  destruct (App _ _ ND) as (N1 & N23 & X1). destruct (App _ _ N23) as (N2 & N3 & X23).
  (* constructor *)
  assert (S3 : exists es3, (match f_ctor f with Some l => fix_ctor w debug t tok_end kind fuel (o ++ all_ops es1) l | None => Ok (o ++ all_ops es1) end)
    = Ok ((o ++ all_ops es1) ++ all_ops es3) /\ Forall edit_ok es3 /\ NoDup (map anchor es3) /\ incl (map anchor es3) P3).
  { unfold P3. destruct (f_ctor f) as [l|].
    - apply ctor_ok; [exact Hf|exact (HI l eq_refl)|exact N3].
    - exists []. rewrite app_nil_r. split; [reflexivity|]. split; [constructor|]. split; [constructor|]. intros x []. }
  destruct S3 as (es3 & E3 & F3 & D3 & I3). rewrite E3. cbn [bind].
  assert (D13 : NoDup (map anchor (es1 ++ es3))).
  { rewrite map_app. apply App'; auto. intros x H1 H3. apply (X1 x); [apply I1, H1|]. apply in_or_app. right. apply I3, H3. }
  assert (I13 : forall x, In x (map anchor (es1 ++ es3)) -> In x P1 \/ In x P3).
  { intros x Hx. rewrite map_app in Hx. apply in_app_or in Hx as [H|H]; auto. }
  assert (F13 : Forall edit_ok (es1 ++ es3)) by now apply Forall_app.
  rewrite <- app_assoc, <- all_ops_app.
  destruct (f_type f) as [[tb te]|] eqn:Et.
  2: { exists (es1 ++ es3), seen. split; [reflexivity|]. split; [|split; [tauto|split; [apply incl_refl|intros (_ & _ & C); congruence]]].
       apply GP; auto. intros x Hx. destruct (I13 x Hx); apply in_or_app; [now left|right; apply in_or_app; now right]. }
  destruct (HT tb te eq_refl) as (Ltb & HC). clear HT.
  assert (Fin : forall es2 es4, Forall edit_ok es2 -> Forall edit_ok es4 -> (map anchor es2 = [] \/ exists rb e, br = Some (rb, e) /\ map anchor es2 = [rb]) ->
    (map anchor es4 = [] \/ map anchor es4 = [b]) ->
    exists es seen', Ok ((o ++ all_ops (es1 ++ es3)) ++ all_ops es2 ++ all_ops es4, f_start f :: seen) = Ok (o ++ all_ops es, seen') /\
      (Forall edit_ok es /\ NoDup (map anchor es) /\ incl (map anchor es) (P1 ++ P2 ++ P3)) /\
      (In (f_start f) seen -> es = []) /\ incl seen seen' /\ (complete f -> In (f_start f) seen')).
  { intros es2 es4 F2 F4 A2 A4. exists ((es1 ++ es3) ++ es2 ++ es4), (f_start f :: seen).
    split; [rewrite !all_ops_app, <- !app_assoc; reflexivity|]. split; [|split; [tauto|split; [intros x; now right|intros _; now left]]].
    assert (D24 : NoDup (map anchor (es2 ++ es4)) /\ incl (map anchor (es2 ++ es4)) P2).
    { rewrite map_app. unfold P2 in *. destruct A2 as [-> |(rb & e & -> & ->)], A4 as [-> | ->]; cbn [app]; split; try (repeat constructor; auto; fail); try (intros x Hx; cbn in *; tauto).
      - destruct br as [[rb e]|]; intros x Hx; cbn in *; tauto.
      - apply (Permutation_NoDup (l := [b; rb])); [apply perm_swap|exact N2]. }
    destruct D24 as [D24 I24]. apply GP.
    - apply Forall_app. split; [exact F13|]. now apply Forall_app.
    - rewrite map_app. apply App'; auto. intros x H1 H2. apply I24 in H2. destruct (I13 x H1) as [H|H].
      + apply (X1 x H). apply in_or_app. now left.
      + exact (X23 x H2 H).
    - intros x Hx. rewrite map_app in Hx. apply in_app_or in Hx as [Hx|Hx].
      + destruct (I13 x Hx); apply in_or_app; [now left|right; apply in_or_app; now right].
      + apply in_or_app. right. apply in_or_app. left. apply I24, Hx. }
  set (fc := (col_of t tb =? 1) || (col_of t (f_name f) =? 1)).
  destruct (f_ctor f) as [inits|] eqn:Ec.
  - destruct inits as [|i0 inits].
    + destruct (Fin [] []) as (es & s' & E & R); auto. exists es, s'. rewrite app_nil_r in E. auto.
    + destruct HC as (p & HL & HBr & HG). rewrite (last_ok (i0 :: inits) p te); [|destruct HL as [[-> HL]|HL]; [left; auto|right; exact HL]].
      destruct (empty_ok (o ++ all_ops (es1 ++ es3)) b br p fc Sb HBr) as (es2 & c & E2 & F2 & A2). rewrite E2. cbn [bind].
      destruct (opt_split_ok ((line_of p =? line_of b) && negb (line_of te =? line_of b)) ((o ++ all_ops (es1 ++ es3)) ++ all_ops es2) tb (S p) b) as (es4 & E4 & F4 & A4); [lia| |exact Sb|].
      * intros C. apply andb_prop in C as [C1 C2]. apply Nat.eqb_eq in C1. apply negb_true_iff, Nat.eqb_neq in C2. auto.
      * destruct (Fin es2 es4 F2 F4 A2 A4) as (es & s' & E & R). exists es, s'. split; [|exact R]. rewrite <- E. unfold split_brace_after.
        destruct ((line_of p =? line_of b) && negb (line_of te =? line_of b)).
        -- rewrite E4. cbn [bind]. now rewrite <- !app_assoc.
        -- injection E4 as E4. rewrite E4 at 1. now rewrite <- !app_assoc.
  - destruct HC as (HBr & HG).
    destruct (empty_ok (o ++ all_ops (es1 ++ es3)) b br te fc Sb HBr) as (es2 & c & E2 & F2 & A2). rewrite E2. cbn [bind].
    destruct (negb c && (fc || negb (line_of tb =? line_of te)) && (line_of te =? line_of b)) eqn:C.
    + apply andb_prop in C as [_ C]. apply Nat.eqb_eq in C. destruct (HG C) as (e & L). destruct (leads_gap t tok_end kind _ _ _ L) as (G1 & G2 & G3 & G4).
      rewrite (first_white_ok debug t tok_end kind te e b L) by (pose proof (solid_lt t b Sb); lia). cbn [bind].
      destruct (split_brace_ok ((o ++ all_ops (es1 ++ es3)) ++ all_ops es2) tb e b ltac:(lia) G1 G2 G3) as (x & E4 & F4).
      rewrite E4. cbn [bind]. destruct (Fin es2 [EGap e b x true]) as (es & s' & E & R); auto. exists es, s'. split; [|exact R]. rewrite <- E. now rewrite <- !app_assoc.
    + destruct (Fin es2 []) as (es & s' & E & R); auto. exists es, s'. split; [|exact R]. rewrite <- E. cbn [all_ops flat_map]. now rewrite app_nil_r.
Qed.

Lemma visit_ok fuel o seen n : length t < fuel -> neat n -> NoDup (places n) ->
  exists es seen', visit w debug t tok_end kind fuel (o, seen) n = Ok (o ++ all_ops es, seen') /\ good n es /\ incl seen seen' /\
    (forall f, n = NFunc f -> (In (f_start f) seen -> es = []) /\ (complete f -> In (f_start f) seen')).
Proof.
  intros Hf HN ND. destruct n as [s|s p|s e|f]; cbn [visit fst snd neat] in *.
  - destruct (cond_ok fuel o s Hf HN) as (es & E & G). exists es, seen. rewrite E. cbn [bind]. split; [reflexivity|]. split; [exact G|]. split; [apply incl_refl|]. intros f X. discriminate.
  - destruct (for_ok o s p HN) as (es & E & G). exists es, seen. rewrite E. cbn [bind]. split; [reflexivity|]. split; [exact G|]. split; [apply incl_refl|]. intros f X. discriminate.
  - destruct (catch_ok fuel o s e Hf HN) as (es & E & G). exists es, seen. rewrite E. cbn [bind]. split; [reflexivity|]. split; [exact G|]. split; [apply incl_refl|]. intros f X. discriminate.
  - destruct (func_ok fuel o seen f Hf HN ND) as (es & s' & E & G & A & B & C). exists es, s'. rewrite E. split; [reflexivity|]. split; [exact G|]. split; [exact B|].
    intros g [= <-]. auto.
Qed.
Lemma visit_all_ok fuel ns : length t < fuel -> Forall neat ns -> distinct ns -> forall prev o seen,
  (forall f, In (NFunc f) prev -> complete f -> In (f_start f) seen) ->
  (forall n m, In n prev -> In m ns -> again n m \/ forall i, In i (places n) -> ~ In i (places m)) ->
  exists es seen', visit_all w debug t tok_end kind fuel (o, seen) ns = Ok (o ++ all_ops es, seen') /\ Forall edit_ok es /\ NoDup (map anchor es) /\
    (forall x, In x (map anchor es) -> exists n, In n ns /\ In x (places n)) /\
    (forall x n, In x (map anchor es) -> In n prev -> ~ In x (places n)).
Proof.
  intros Hf HN [D1 D2]. induction ns as [|n ns IH]; intros prev o seen HP HD; cbn [visit_all].
  - exists [], seen. rewrite app_nil_r. split; [reflexivity|]. split; [constructor|]. split; [constructor|]. split; intros x; [intros []|intros n []].
  - inversion HN as [|? ? N1 N2]; subst. inversion D1 as [|? ? X1 X2]; subst. inversion D2 as [|? ? Y1 Y2]; subst.
    destruct (visit_ok fuel o seen n Hf N1 X1) as (es1 & s1 & E1 & (G1 & G2 & G3) & I1 & C1). rewrite E1. cbn [bind].
    destruct (IH N2 X2 Y2 (n :: prev) (o ++ all_ops es1) s1) as (es2 & s2 & E2 & F2 & D & P2 & Q2).
    + intros f [->|H] C; [apply (proj2 (C1 f eq_refl) C)|apply I1, HP; auto].
    + intros a m [<-|Ha] Hm; [rewrite Forall_forall in Y1; auto|apply HD; [exact Ha|now right]].
    + exists (es1 ++ es2), s2. rewrite E2, all_ops_app, <- app_assoc. split; [reflexivity|]. split; [now apply Forall_app|]. rewrite map_app. split; [|split].
      * assert (App' : forall l1 l2 : list nat, NoDup l1 -> NoDup l2 -> (forall x, In x l1 -> ~ In x l2) -> NoDup (l1 ++ l2)).
        { clear. induction l1 as [|a l1 IH]; intros l2 H1 H2 H; cbn in *; [auto|]. inversion H1; subst. constructor; [|auto].
          intros X. apply in_app_or in X as [X|X]; [contradiction|]. exact (H a (or_introl eq_refl) X). }
        apply App'; auto. intros x H1 H2. exact (Q2 x n H2 (or_introl eq_refl) (G3 x H1)).
      * intros x H. apply in_app_or in H as [H|H]; [exists n; split; [now left|auto]|]. destruct (P2 x H) as (m & Hm & Hx). exists m. split; [now right|exact Hx].
      * intros x m H Hm. apply in_app_or in H as [H|H]; [|apply (Q2 x m H); now right].
        destruct (HD m n Hm (or_introl eq_refl)) as [(f & g & -> & -> & Es & C)|Dj].
        -- destruct (C1 g eq_refl) as [C1' _]. rewrite C1' in H; [destruct H|]. rewrite <- Es. apply HP; auto.
        -- intros X. exact (Dj x X (G3 x H)).
Qed.
End V.

(** ** A piece of text no edit touches *)
Lemma edited_app (ops : list (operation N)) l1 l2 i : edited ops i (l1 ++ l2) = edited ops i l1 ++ edited ops (i + length l1) l2.
Proof.
  revert i. induction l1 as [|c l1 IH]; intros i; cbn [app edited length]; [now rewrite Nat.add_0_r|]. rewrite IH, <- app_assoc.
  now replace (S i + length l1) with (i + S (length l1)) by lia.
Qed.
Lemma edited_same (ops : list (operation N)) : forall l i, (forall op k, In op ops -> i <= k < i + length l -> offset op <> k /\ takes_away op k = false) ->
  edited ops i l = l.
Proof.
  induction l as [|c l IH]; intros i H; [reflexivity|]. cbn [edited]. rewrite IH.
  - unfold piece. rewrite (flat_none N before), (flat_none N behind), (exists_none N); [reflexivity| | |].
    + intros op Ho. apply (H op i Ho). cbn. lia.
    + intros op Ho. apply behind_elsewhere. apply (H op i Ho). cbn. lia.
    + intros op Ho. apply before_elsewhere. apply (H op i Ho). cbn. lia.
  - intros op k Ho Hk. apply H; [exact Ho|]. cbn [length]. lia.
Qed.
Lemma squeeze_piece t (tok_end : nat -> nat) (kind : nat -> tk) es a b : Forall (edit_ok t) es -> NoDup (map anchor es) -> a < b ->
  is_char t a (fun c => white c = false /\ c <> 44%N) -> solid t (b - 1) -> (forall x, In x (map anchor es) -> ~ a <= x < b) ->
  exists l r, edited (all_ops es) 0 t = l ++ firstn (b - a) (skipn a t) ++ r /\ squeeze l = squeeze (firstn a t) /\ squeeze r = squeeze (skipn b t).
Proof.
  intros F ND L (ca & Ea & Wa & Ca) Sb HA. pose proof (solid_lt t _ Sb) as Lb.
  assert (Sa : solid t a) by now exists ca.
  assert (Et : t = firstn a t ++ firstn (b - a) (skipn a t) ++ skipn b t).
  { replace (skipn b t) with (skipn (b - a) (skipn a t)).
    - now rewrite !firstn_skipn.
    - clear - L. assert (forall i j (l : text), skipn i (skipn j l) = skipn (j + i) l) as X.
      { intros i j. induction j as [|j IH]; intros l; [reflexivity|]. destruct l as [|x l]; [now rewrite !skipn_nil|]. cbn. apply IH. }
      rewrite X. f_equal. lia. }
  assert (L1 : length (firstn a t) = a) by (rewrite firstn_length; lia).
  assert (L2 : length (firstn (b - a) (skipn a t)) = b - a) by (rewrite firstn_length, skipn_length; lia).
  assert (Ok1 : forall x, In x es -> edit_ok t x) by (intros x Hx; rewrite Forall_forall in F; auto).
  assert (Own : forall x, In x es -> ~ a <= anchor x < b) by (intros x Hx; apply HA, in_map, Hx).
  (* commas around the piece *)
  assert (Nc : forall r n, In (EComma r n) es -> b <= r \/ n < a).
  { intros r n H. destruct (Ok1 _ H) as (R & Ln & B & (cn & En & ->)). pose proof (Own _ H) as O. cbn in O.
    destruct (Nat.le_gt_cases b r) as [|G]; [auto|right]. assert (r < a) by lia.
    destruct (Nat.lt_trichotomy n a) as [|[E|E]]; [auto|subst n; congruence|]. exfalso. exact (solid_not_blank t (S r) n a B Sa ltac:(lia)). }
  assert (No : forall i, i = a \/ i = b -> ~ owed es i).
  { intros i Hi (r & n & H & Hr). destruct (Nc r n H); lia. }
  set (l := edited (all_ops es) 0 (firstn a t)). set (r := edited (all_ops es) b (skipn b t)).
  assert (E : edited (all_ops es) 0 t = l ++ firstn (b - a) (skipn a t) ++ r).
  { rewrite Et at 1. rewrite !edited_app, L1, L2. cbn [Nat.add]. replace (a + (b - a)) with b by lia. f_equal. f_equal. apply edited_same.
    intros op k Ho Hk. rewrite L2 in Hk. unfold all_ops in Ho. apply in_flat_map in Ho as (x & Hx & Ho).
    destruct (op_place t tok_end kind x op (Ok1 x Hx) Ho) as [(a' & b' & y & rr & -> & O & T)|(S1 & T & K)].
    - destruct (Ok1 _ Hx) as (G1 & G2 & G3 & _). pose proof (Own _ Hx) as Q. cbn in Q.
      assert (b' <= a \/ b <= a').
      { destruct (Nat.le_gt_cases b' a) as [|X]; [auto|right]. destruct (Nat.le_gt_cases b a') as [|Y]; [auto|exfalso].
        destruct (Nat.le_gt_cases a' a) as [Z|Z]; [exact (solid_not_blank t a' b' a G2 Sa ltac:(lia))|].
        exact (solid_not_blank t a' b' (b - 1) G2 Sb ltac:(lia)). }
      rewrite O. split; [lia|]. apply not_true_iff_false. rewrite T. lia.
    - assert (D : offset op < a \/ b <= offset op).
      { destruct K as [(e & -> & O)|(r0 & n0 & -> & O)].
        - pose proof (Own _ Hx) as Q. cbn in Q. lia.
        - destruct (Ok1 _ Hx) as (_ & G2 & _). destruct (Nc r0 n0 Hx), O; lia. }
      split; [lia|]. apply not_true_iff_false. intros X. apply T in X. lia. }
  assert (Sr : squeeze r = squeeze (skipn b t)).
  { apply (squeeze_suffix t tok_end kind es F ND (skipn b t) b eq_refl). apply No. auto. }
  exists l, r. split; [exact E|]. split; [|exact Sr].
  pose proof (squeeze_edited t tok_end kind es F ND) as Z. rewrite E in Z. assert (Zt : squeeze t = squeeze (firstn a t) ++ squeeze (firstn (b - a) (skipn a t)) ++ squeeze (skipn b t)) by (rewrite <- !squeeze_app; now f_equal).
  rewrite Zt, !squeeze_app, Sr in Z. now apply app_inv_tail in Z.
Qed.

(** ** More fuel changes nothing *)
Section Fuel.
Variable w : N.
Variable debug : bool.
Variable t : text.
Variable tok_end : nat -> nat.
Variable kind : nat -> tk.
Notation next_token := (next_token debug t tok_end kind).
Lemma next_mono f : forall f' i j, f <= f' -> next_token f i = Ok j -> next_token f' i = Ok j.
Proof.
  induction f as [|f IH]; intros f' i j L H; [discriminate|]. destruct f' as [|f']; [lia|]. cbn [StylerModel.next_token] in *.
  destruct (skip_white t i) as [k| |]; cbn [bind] in *; try discriminate. destruct (kind k); auto.
  destruct (skip_token debug t tok_end k) as [m| |]; cbn [bind] in *; try discriminate. apply (IH f' m j); [lia|exact H].
Qed.
Lemma first_mono f : forall f' i b j, f <= f' -> first_white_before debug t tok_end f i b = Ok j -> first_white_before debug t tok_end f' i b = Ok j.
Proof.
  induction f as [|f IH]; intros f' i b j L H; [discriminate|]. destruct f' as [|f']; [lia|]. cbn [first_white_before] in *.
  destruct (is_white t i) as [[|]| |]; cbn [bind] in *; try discriminate.
  - destruct (skip_white t i) as [k| |]; cbn [bind] in *; try discriminate. destruct (k =? b); [exact H|].
    destruct (assert_ debug (k <? b)); cbn [bind] in *; try discriminate. apply (IH f' k b j); [lia|exact H].
  - destruct (skip_token debug t tok_end i) as [k| |]; cbn [bind] in *; try discriminate.
    destruct (assert_ debug (k <? b)); cbn [bind] in *; try discriminate. apply (IH f' k b j); [lia|exact H].
Qed.
Lemma rparen_mono f f' i r : f <= f' -> rparen_after debug t tok_end kind f i = Ok r -> rparen_after debug t tok_end kind f' i = Ok r.
Proof.
  intros L H. unfold rparen_after in *. destruct (skip_token debug t tok_end i) as [k| |]; cbn [bind] in *; try discriminate.
  destruct (next_token f k) as [m| |] eqn:E; cbn [bind] in *; try discriminate. now rewrite (next_mono f f' k m L E).
Qed.
Lemma inits_mono f f' l : f <= f' -> forall o r, fix_inits w debug t tok_end kind f o l = Ok r -> fix_inits w debug t tok_end kind f' o l = Ok r.
Proof.
  intros L. induction l as [|[x|] l IH]; intros o r H; cbn [fix_inits] in *; auto.
  destruct (next_token f (S x)) as [m| |] eqn:E; cbn [bind] in *; try discriminate. rewrite (next_mono f f' _ m L E). cbn [bind].
  destruct (kind m); auto. destruct (_ =? _); auto.
Qed.
Lemma visit_mono f f' st n r : f <= f' -> visit w debug t tok_end kind f st n = Ok r -> visit w debug t tok_end kind f' st n = Ok r.
Proof.
  intros L. destruct n as [s|s p|s e|g]; cbn [visit]; auto.
  - unfold handle_cond. destruct (c_main s), (c_compound s); cbn [negb]; auto. destruct (c_end s) as [e|]; auto.
    destruct (rparen_after debug t tok_end kind f e) as [x| |] eqn:E; try (cbn [bind]; discriminate). now rewrite (rparen_mono f f' e x L E).
  - unfold visit_catch. destruct (c_main s), (c_compound s); cbn [negb]; auto. destruct e as [e|]; auto. cbn [bind].
    destruct (rparen_after debug t tok_end kind f e) as [x| |] eqn:E; try (cbn [bind]; discriminate). now rewrite (rparen_mono f f' e x L E).
  - unfold visit_func. destruct st as [o seen]. destruct (f_main g); cbn [negb]; auto. destruct (existsb _ seen); auto.
    destruct (match f_operator g with Some e => fix_operator t o e | None => Ok o end) as [o1| |]; cbn [bind]; try discriminate.
    destruct (f_body g) as [[b br]|]; auto.
    assert (C : forall r, match f_ctor g with Some l => fix_ctor w debug t tok_end kind f o1 l | None => Ok o1 end = Ok r ->
      match f_ctor g with Some l => fix_ctor w debug t tok_end kind f' o1 l | None => Ok o1 end = Ok r).
    { intros r0. destruct (f_ctor g) as [l|]; auto. unfold fix_ctor. destruct (length l <=? 1); auto. now apply inits_mono. }
    destruct (match f_ctor g with Some l => fix_ctor w debug t tok_end kind f o1 l | None => Ok o1 end) as [o2| |]; cbn [bind]; try discriminate.
    rewrite (C o2 eq_refl). cbn [bind]. destruct (f_type g) as [[tb te]|]; auto. destruct (f_ctor g) as [[|i0 l]|]; auto.
    match goal with |- context [fix_empty ?a ?b ?c ?d ?e ?f ?g ?h ?i] => destruct (fix_empty a b c d e f g h i) as [[o3 cs]| |]; cbn [bind]; try discriminate end.
    destruct (_ && _); auto. destruct (first_white_before debug t tok_end f te b) as [e| |] eqn:E; cbn [bind]; try discriminate.
    now rewrite (first_mono f f' te b e L E).
Qed.
Lemma visit_all_mono f f' ns : f <= f' -> forall st r, visit_all w debug t tok_end kind f st ns = Ok r -> visit_all w debug t tok_end kind f' st ns = Ok r.
Proof.
  intros L. induction ns as [|n ns IH]; intros st r H; cbn [visit_all] in *; auto.
  destruct (visit w debug t tok_end kind f st n) as [s| |] eqn:E; cbn [bind] in *; try discriminate. rewrite (visit_mono f f' st n s L E). cbn [bind]. auto.
Qed.
End Fuel.
