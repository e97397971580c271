(** More about the loop: the state keeps its shape; unknown options; order; prefixes; stop options. *)
From Coq Require Import String.
From Verif Require Import Base ArgModel ArgSpec ArgProofs1 ArgProofs2 ArgProofs3.
Local Open Scope nat_scope.
Local Open Scope list_scope.

(** * The state keeps its shape *)
Section Fits.
Variable lb : Z.
Variable c : cfg.
Lemma read_head_fits st pos a st' : fits c st -> read_head c st pos a = Ok (HSkip st') -> fits c st'.
Proof.
  intros Hf. unfold read_head. destruct (allow_pass c && streq a (lit "--")); [intros [= <-]; exact Hf|].
  destruct (has_pass st); [intros [= <-]; exact Hf|].
  destruct (is_option c a).
  - destruct (resolve c a) as [[[[i vp] sep]|]| |]; cbn [bind]; try discriminate.
    destruct (kind_at c i) as [k| |]; cbn [bind]; try discriminate.
    destruct (slot_get (vals st) i) as [vs| |]; cbn [bind]; try discriminate.
    destruct (negb (will_repeat k vs)); try discriminate. destruct sep as [p|]; try discriminate.
    destruct (ptr_add a (p + 1)); cbn [bind]; try discriminate. destruct (must_omit k); discriminate.
  - destruct (length (positionals c) <=? pos); [|discriminate]. destruct (collect_extra c); [|discriminate].
    intros [= <-]; exact Hf.
Qed.
Lemma store_fits st i x : fits c st -> fits c (store c st i x).
Proof.
  intros [H1 H2]. unfold store. split; cbn; [|exact H2].
  destruct (nth_error (options c) i); [|exact H1]. destruct (nth_error (vals st) i); [|exact H1].
  now rewrite upd_length.
Qed.
Definition state_of (r : lres) : pstate := match r with LErr s => s | LDone _ _ s => s end.
Lemma loop_fits n : forall args st pos r, length args <= n -> fits c st -> loop lb c args pos st = Ok r -> fits c (state_of r).
Proof.
  induction n as [|n IH]; intros args st pos r Hn Hf H.
  { destruct args; [|cbn in Hn; lia]. cbn in H. injection H as <-. exact Hf. }
  destruct args as [|a rest]; [cbn in H; injection H as <-; exact Hf|]. cbn [length] in Hn. cbn [loop] in H.
  destruct (read_head c st pos a) as [h| |] eqn:E; cbn [bind] in H; try discriminate.
  destruct h as [e|s'|i vp|i v].
  - injection H as <-. exact Hf.
  - eapply IH; [| |exact H]; [lia|]. eapply read_head_fits; eauto.
  - destruct (nth_error (options c) i) as [o|]; [|discriminate]. pose proof (fun x => store_fits st i x Hf) as Hs.
    destruct vp as [v|].
    + destruct (consume lb o (Some v)) as [[x|]| |]; cbn [bind] in H; try discriminate.
      * destruct (halts (o_kind o)); [injection H as <-; apply Hs|]. eapply IH; [| |exact H]; [lia|apply Hs].
      * destruct (can_omit (o_kind o)); [|injection H as <-; exact Hf].
        destruct (halts (o_kind o)); [injection H as <-; exact Hf|]. eapply IH; [| |exact H]; [lia|exact Hf].
    + destruct rest as [|next rest'].
      * destruct (can_omit (o_kind o)); [|injection H as <-; exact Hf].
        destruct (consume lb o None) as [[x|]| |]; cbn [bind] in H; try discriminate; injection H as <-; [apply Hs|exact Hf].
      * destruct (must_omit (o_kind o)).
        -- destruct (consume lb o None) as [[x|]| |]; cbn [bind] in H; try discriminate.
           ++ destruct (halts (o_kind o)); [injection H as <-; apply Hs|]. eapply IH; [| |exact H]; [cbn in *; lia|apply Hs].
           ++ destruct (can_omit (o_kind o)); [|discriminate].
              destruct (halts (o_kind o)); [injection H as <-; exact Hf|]. eapply IH; [| |exact H]; [cbn in *; lia|exact Hf].
        -- destruct (consume lb o (Some next)) as [[x|]| |]; cbn [bind] in H; try discriminate.
           ++ destruct (halts (o_kind o)); [injection H as <-; apply Hs|]. eapply IH; [| |exact H]; [cbn in *; lia|apply Hs].
           ++ destruct (can_omit (o_kind o)); [|injection H as <-; exact Hf].
              destruct (halts (o_kind o)); [injection H as <-; exact Hf|]. eapply IH; [| |exact H]; [cbn in *; lia|exact Hf].
  - destruct (nth_error (positionals c) i) as [p|]; [|discriminate].
    destruct (policy_consume lb p (Some v)) as [[x|]| |]; cbn [bind] in H; try discriminate.
    + eapply IH; [| |exact H]; [lia|]. destruct Hf as [H1 H2]. split; cbn; [exact H1|now rewrite upd_length].
    + injection H as <-. exact Hf.
Qed.
Lemma parse_fits st args b st' : fits c st -> parse lb c st args = Ok (b, st') -> fits c st'.
Proof.
  intros Hf H. unfold parse in H. destruct (loop lb c args 0 st) as [r| |] eqn:E; cbn [bind] in H; try discriminate.
  pose proof (loop_fits (length args) args st 0 r (le_n _) Hf E) as Hr. destruct r as [s|p h s]; cbn [state_of] in Hr.
  - injection H as <- <-. exact Hr.
  - destruct (negb h && (p <? length (positionals c))); injection H as <- <-; exact Hr.
Qed.
Lemma reset_fits st : fits c st -> fits c (reset c st).
Proof. intros [H1 H2]. split; cbn; now rewrite map_length. Qed.

Lemma parse_prefix st args args' pos st1 : (forall rest, loop lb c (args ++ rest) 0 st = loop lb c rest pos st1) ->
  loop lb c args' pos st1 = loop lb c args' pos st1 ->
  parse lb c st (args ++ args') =
  do r <- loop lb c args' pos st1;
  match r with
  | LErr st => Ok (false, st)
  | LDone positional halted st =>
      if negb halted && (positional <? List.length (positionals c))
      then Ok (false, set_error st (MissingPositional positional))
      else Ok (negb (help_wanted c st), st)
  end.
Proof. intros H _. unfold parse. now rewrite H. Qed.
End Fits.

Section More.
Variable lb : Z.
Hypothesis Hlb : (0 < lb)%Z.
Variable c : cfg.
Hypothesis Hok : cfg_ok c.
Notation inl := (inline_values c).

(** * Unknown options *)
Lemma unknown_head st pos a : fits c st -> has_pass st = false -> option_like c a ->
  ~ (allow_pass c = true /\ a = lit "--") -> ~ refers c a -> ~ stuck c a ->
  (forall b, a = lead Long ++ no_prefix ++ b -> exists i o n, negates c a i o n /\ o_kind o <> KEnable) ->
  read_head c st pos a = Ok (HErr (Unrecognized a)).
Proof.
  intros Hf Hp Ho Hd Hr Hs Hn.
  assert (Ed : allow_pass c && streq a (lit "--") = false).
  { destruct (allow_pass c) eqn:E1; [|reflexivity]. destruct (streq a (lit "--")) eqn:E2; [|reflexivity].
    apply streq_iff in E2. exfalso. apply Hd. auto. }
  assert (Hname : forall b n, (b = n \/ exists v, attached inl b n v) -> (n <> [] -> ~ In c_eq n /\ (inl = true -> ~ In c_colon n)) ->
             n <> [] -> name_of inl b = n).
  { intros b n [->|[v Hv]] Hc Hne.
    - unfold name_of. destruct (split_body inl n) as [[m w]|] eqn:E; [|reflexivity]. exfalso.
      apply split_body_iff in E. destruct (Hc Hne) as [Hc1 Hc2]. destruct E as [(E & _)|(E0 & E & _)].
      + apply Hc1. rewrite E. apply in_or_app. right. now left.
      + apply (Hc2 E0). rewrite E. apply in_or_app. right. now left.
    - unfold name_of. apply split_body_iff in Hv. now rewrite Hv. }
  assert (Hneg : forall i o n, negates c a i o n -> o_kind o = KEnable -> False).
  { intros i o n (Hs1 & b & -> & Hb) Hk. destruct (Hn b eq_refl) as (i' & o' & n' & (Hs2 & b' & E & Hb') & Hk').
    apply app_inv_head in E. apply app_inv_head in E. subst b'.
    pose proof (spelled_name c Hok _ _ _ _ Hs1) as (Ha1 & _ & Ha2 & Ha3).
    pose proof (spelled_name c Hok _ _ _ _ Hs2) as (Hb1 & _ & Hb2 & Hb3).
    rewrite <- (Hname b n Hb ltac:(auto) Ha1) in Hs1. rewrite <- (Hname b n' Hb' ltac:(auto) Hb1) in Hs2.
    destruct Hs1 as [H1 H2], Hs2 as [H3 H4]. cbn in H2, H4.
    assert (i = i') by (eapply (ok_long c Hok); eauto). subst i'. congruence. }
  destruct (head_class c Hok st pos a Hf Hp Ed Ho) as
    [e He|b E1 E2 E3|sp i o n v body H1 H2 H3 H4 H5|sp i o ch v H1 H2 H3 H4|sp i o n H1 H2 H3|i o n H1 H2 H3 H4].
  - destruct He as [->|[H|[H|(i & o & n & Hng & Hk)]]]; [reflexivity|contradiction|contradiction|]. now destruct (Hneg i o n).
  - exfalso. destruct (Hn b E1) as (i & o & n & (Hs2 & b' & E & Hb') & Hk'). rewrite E1 in E.
    apply app_inv_head in E. apply app_inv_head in E. subst b'.
    pose proof (spelled_name c Hok _ _ _ _ Hs2) as (Hb1 & _ & Hb2 & Hb3).
    rewrite (Hname b n Hb' ltac:(auto) Hb1) in E2. apply (by_long_none c) with (o := o) in E2; [|eapply nth_error_In; apply Hs2].
    apply E2. apply Hs2.
  - exfalso. apply Hr. exists sp, i, o, n, body. eauto.
  - exfalso. apply Hs. exists sp, i, o, ch, v. eauto.
  - exfalso. apply Hr. exists sp, i, o, n, n. eauto.
  - exfalso. apply (Hneg i o n); [|exact H3]. split; [exact H1|]. exists n. auto.
Qed.
Lemma no_unknown_head st pos b : fits c st -> has_pass st = false ->
  (forall o, In o (options c) -> o_long o <> Some (name_of inl b)) ->
  (forall o, In o (options c) -> o_long o <> Some (no_prefix ++ name_of inl b)) ->
  read_head c st pos (lead Long ++ no_prefix ++ b) = Fault NullDeref.
Proof.
  intros Hf Hp H1 H2. rewrite lead_long. cbn [app].
  destruct (name_of_no inl b) as (m & E1 & E2 & E3).
  rewrite read_head_option; auto.
  - destruct (resolve_long c (no_prefix ++ b)) as (sep & _ & H). rewrite H, E1, E2.
    rewrite (proj2 (by_long_none c _) H2).
    assert (Es : strncmp_eq 5 (c_dash :: c_dash :: no_prefix ++ b) (lit "--no-") = true) by (apply strncmp_no; eauto).
    rewrite Es. rewrite no_prefix_val. cbn [app skipn]. unfold no_case. now rewrite (proj2 (by_long_none c _) H1).
  - rewrite no_prefix_val. cbn [app]. destruct (allow_pass c); reflexivity.
Qed.

(** * Order of positionals and extras *)
Lemma subseq_nil {A} (l : list A) : subseq [] l.
Proof. induction l; constructor; auto. Qed.
Lemma F2_len {A B} (R : A -> B -> Prop) l l' : Forall2 R l l' -> length l = length l'.
Proof. induction 1; cbn; congruence. Qed.

Lemma reads_order st pos args st' pos' h : reads lb c st pos args st' pos' h ->
  exists ps es xs, subseq (ps ++ es) args /\ Forall (fun a => ~ option_like c a) (ps ++ es)
    /\ Forall2 (fun a x => exists p, reads_as lb p a x) ps xs
    /\ (forall k a, nth_error ps k = Some a -> exists p x, nth_error (positionals c) (pos + k) = Some p
          /\ nth_error xs k = Some x /\ reads_as lb p a x)
    /\ pos' = pos + length ps /\ extra st' = extra st ++ es
    /\ (forall k, pos <= k < pos' -> k < length (pvals st) -> nth_error (pvals st') k = option_map Some (nth_error xs (k - pos)))
    /\ (forall k, k < pos \/ pos' <= k -> nth_error (pvals st') k = nth_error (pvals st) k).
Proof.
  induction 1 as
    [st pos
    |st pos sp i o n v body p x rest st' pos' h Hp Hs Ha Ht Hfr Hr H IH
    |st pos sp i o ch v p x rest st' pos' h Hp Hg Ht Hfr Hr H IH
    |st pos sp i o n v p x rest st' pos' h Hp Hs Ht Hfr Hr H IH
    |st pos sp i o n Hp Hs Hk Hfr
    |st pos sp i o n next rest st' pos' h Hp Hs Hk Hfr Hr H IH
    |st pos sp i o n v body rest st' pos' h Hp Hs Ha Hk Hfr Hr H IH
    |st pos sp i o ch v rest st' pos' h Hp Hg Hk Hfr Hr H IH
    |st pos sp i o n x rest st' pos' h Hp Hs Hfr Hv Hk H IH
    |st pos i o n rest st' pos' h Hp Hs Hfr Hk H IH
    |st pos sp i o n x rest Hp Hs Hfr Hk Hv
    |st pos a p x rest st' pos' h Hp Ha Hpos Hr H IH
    |st pos a rest st' pos' h Hp Ha Hpos Hc H IH
    |st pos rest st' pos' h Hap H IH
    |st pos a rest st' pos' h Hp Ha H IH].
  all: try (destruct IH as (ps & es & xs & I1 & I2 & I3 & I4 & I5 & I6 & I7 & I8);
            exists ps, es, xs; repeat (split; [first [assumption | now apply sub_skip | now apply sub_skip, sub_skip]|]);
            repeat split; assumption).
  - exists [], [], []. cbn. rewrite app_nil_r, Nat.add_0_r. 
    split; [constructor|]. split; [constructor|]. split; [constructor|]. split; [intros [|k] a; discriminate|].
    repeat split; auto. intros; lia.
  - exists [], [], []. cbn. rewrite app_nil_r, Nat.add_0_r. 
    split; [apply subseq_nil|]. split; [constructor|]. split; [constructor|]. split; [intros [|k] a; discriminate|].
    repeat split; auto. intros; lia.
  - exists [], [], []. cbn. rewrite app_nil_r, Nat.add_0_r. 
    split; [apply subseq_nil|]. split; [constructor|]. split; [constructor|]. split; [intros [|k] a; discriminate|].
    repeat split; auto. intros; lia.
  - destruct IH as (ps & es & xs & I1 & I2 & I3 & I4 & I5 & I6 & I7 & I8).
    exists (a :: ps), es, (x :: xs). split; [now apply sub_keep|]. split; [now constructor|]. split; [constructor; eauto|].
    split; [|split; [cbn [length]; lia|split; [exact I6|split]]].
    + intros [|k] b Hb; cbn [nth_error] in Hb.
      * injection Hb as <-. exists p, x. rewrite Nat.add_0_r. auto.
      * rewrite Nat.add_succ_r. exact (I4 k b Hb).
    + intros k Hk Hl. destruct (Nat.eq_dec k pos) as [->|Hne].
      * rewrite I8 by lia. cbn [given_pos pvals]. rewrite nth_error_upd, Nat.eqb_refl. apply Nat.ltb_lt in Hl. rewrite Hl.
        now rewrite Nat.sub_diag.
      * rewrite I7; [|lia|cbn; rewrite upd_length; lia]. replace (k - pos) with (S (k - S pos)) by lia. reflexivity.
    + intros k Hk. rewrite I8 by lia. cbn [given_pos pvals]. rewrite nth_error_upd.
      destruct (Nat.eqb_spec pos k); [lia|reflexivity].
  - destruct IH as (ps & es & xs & I1 & I2 & I3 & I4 & I5 & I6 & I7 & I8).
    assert (ps = []).
    { destruct ps as [|b ps]; [reflexivity|]. destruct (I4 0 b eq_refl) as (p & x & E & _). rewrite Nat.add_0_r in E.
      assert (pos < length (positionals c)) by (apply nth_error_Some; congruence). lia. }
    subst ps. exists [], (a :: es), xs. cbn [app] in *. split; [now apply sub_keep|]. split; [now constructor|].
    split; [exact I3|]. split; [exact I4|]. split; [exact I5|]. split; [|auto].
    rewrite I6. cbn [add_extra extra]. now rewrite <- app_assoc.
Qed.
End More.
