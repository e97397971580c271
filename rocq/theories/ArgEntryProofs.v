(** Proofs about the ways into the argument parser: which options a parser has after any history, and that
    parsers without common options do not influence each other. *)
From Coq Require Import Ascii String.
From Verif Require Import Base ArgModel ArgEntryModel ArgEntrySpec.
Local Open Scope nat_scope.
Local Open Scope list_scope.
Local Notation length := List.length.

Lemma nth_upd {A} (l : list A) i j x : nth_error (upd l i x) j = if (i =? j) && (i <? length l) then Some x else nth_error l j.
Proof.
  revert i j. induction l as [|a l IH]; intros i j; cbn.
  - rewrite andb_comm. cbn. reflexivity.
  - destruct i, j; cbn; auto. rewrite IH. reflexivity.
Qed.
Lemma upd_length {A} (l : list A) i x : length (upd l i x) = length l.
Proof. revert i. induction l; destruct i; cbn; auto. Qed.
Lemma map_upd {A B} (f : A -> B) l i x : map f (upd l i x) = upd (map f l) i (f x).
Proof. revert i. induction l; destruct i; cbn; auto. now rewrite IHl. Qed.
Lemma upd_same {A} (l : list A) i x : nth_error l i = Some x -> upd l i x = l.
Proof. revert i. induction l; destruct i; cbn; intros H; try congruence. now rewrite IHl. Qed.
Lemma nth_or {A} (l : list A) j d : nth j l d = match nth_error l j with Some x => x | None => d end.
Proof. revert j. induction l; destruct j; cbn; auto. Qed.

(** * Writing values back *)
Section Write.
Context {A B : Type}.
Implicit Types (objs : list (A * B)).
Lemma write_fst objs ids xs : map fst (write objs ids xs) = map fst objs.
Proof.
  revert objs xs. induction ids as [|i ids IH]; intros objs [|x xs]; cbn; auto. rewrite IH.
  destruct (nth_error objs i) as [[a b]|] eqn:E; auto. rewrite map_upd. cbn. apply upd_same. now rewrite nth_error_map, E.
Qed.
Lemma write_len objs ids xs : length (write objs ids xs) = length objs.
Proof. rewrite <- (map_length fst), write_fst. apply map_length. Qed.
Lemma write_other objs ids xs d j : ~ In j ids -> nth j (write objs ids xs) d = nth j objs d.
Proof.
  revert objs xs. induction ids as [|i ids IH]; intros objs [|x xs] H; cbn; auto. rewrite IH by (intro; apply H; now right).
  destruct (nth_error objs i) as [[a b]|] eqn:E; auto.
  rewrite !nth_or, nth_upd. replace (i =? j) with false by (symmetry; apply Nat.eqb_neq; intro; subst; apply H; now left). reflexivity.
Qed.
Lemma write_same objs ids xs d : NoDup ids -> Forall (fun i => i < length objs) ids -> length xs = length ids ->
  map (fun i => snd (nth i (write objs ids xs) d)) ids = xs.
Proof.
  revert objs xs. induction ids as [|i ids IH]; intros objs [|x xs] Hn Hf Hl; cbn in *; try discriminate; auto.
  inversion Hn; subst. inversion Hf; subst. destruct (nth_error objs i) as [[a b]|] eqn:E.
  2: { apply nth_error_None in E. lia. }
  f_equal.
  - rewrite write_other by auto. rewrite nth_or, nth_upd, Nat.eqb_refl. now replace (i <? length objs) with true by lia.
  - apply IH; auto. eapply Forall_impl; [|eassumption]. intros j Hj. cbn in Hj. now rewrite upd_length.
Qed.
End Write.

(** * parse keeps the number of options *)
Lemma store_sizes c st i v : length (vals (store c st i v)) = length (vals st) /\ length (pvals (store c st i v)) = length (pvals st).
Proof. unfold store. destruct nth_error, (nth_error (vals st) i); cbn; rewrite ?upd_length; auto. Qed.
Definition same_size (a b : pstate) : Prop := length (vals a) = length (vals b) /\ length (pvals a) = length (pvals b).
Lemma loop_sizes lb c n : forall args pos st r, length args <= n -> loop lb c args pos st = Ok r ->
  match r with LErr st' | LDone _ _ st' => same_size st' st end.
Proof.
  induction n as [|n IH]; intros args pos st r Hn.
  - destruct args; cbn in *; [|lia]. intros H. injection H as <-. split; reflexivity.
  - destruct args as [|arg rest]; cbn [loop].
    { intros H. injection H as <-. split; reflexivity. }
    cbn in Hn.
    assert (IH' : forall l pos st st1 r, length l <= n -> loop lb c l pos st = Ok r -> same_size st st1 ->
      match r with LErr st' | LDone _ _ st' => same_size st' st1 end).
    { intros l p s s1 r' Hl Hr [S1 S2]. specialize (IH l p s r' Hl Hr). destruct r'; destruct IH; split; congruence. }
    assert (HS : forall i v, same_size (store c st i v) st) by (intros; apply store_sizes).
    assert (HR : same_size st st) by (split; reflexivity).
    destruct (read_head c st pos arg) as [h| |] eqn:Eh; cbn [bind]; try discriminate.
    destruct h as [e|st1|i vp|i v].
    + intros H. injection H as <-. split; reflexivity.
    + intros H. eapply IH'; [|exact H|]; [lia|]. unfold read_head in Eh.
      destruct (allow_pass c && streq arg (lit "--")); [injection Eh as <-; split; reflexivity|].
      destruct (has_pass st); [injection Eh as <-; split; reflexivity|].
      destruct (is_option c arg).
      * destruct (resolve c arg) as [[[[i vp] sep]|]| |]; cbn [bind] in Eh; try discriminate.
        destruct (kind_at c i); cbn [bind] in Eh; try discriminate. destruct (slot_get (vals st) i); cbn [bind] in Eh; try discriminate.
        destruct (negb _); try discriminate. destruct sep; try discriminate.
        destruct (ptr_add arg _); cbn [bind] in Eh; try discriminate. destruct (must_omit _); discriminate.
      * destruct (length (positionals c) <=? pos); try discriminate. destruct (collect_extra c); try discriminate.
        injection Eh as <-. split; reflexivity.
    + destruct (nth_error (options c) i) as [o|]; try discriminate.
      destruct vp as [v|].
      * destruct (consume lb o (Some v)) as [[x|]| |]; cbn [bind]; try discriminate.
        { destruct (halts _); [intros H; injection H as <-; auto|]. intros H; eapply IH'; [|exact H|]; auto; lia. }
        destruct (can_omit _); [|intros H; injection H as <-; split; reflexivity].
        destruct (halts _); [intros H; injection H as <-; auto|]. intros H; eapply IH'; [|exact H|]; auto; lia.
      * destruct rest as [|next rest'].
        { destruct (can_omit _); [|intros H; injection H as <-; split; reflexivity].
          destruct (consume lb o None) as [[x|]| |]; cbn [bind]; try discriminate; intros H; injection H as <-; auto. }
        destruct (must_omit _).
        { destruct (consume lb o None) as [[x|]| |]; cbn [bind]; try discriminate.
          - destruct (halts _); [intros H; injection H as <-; auto|]. intros H; eapply IH'; [|exact H|]; auto; lia.
          - destruct (can_omit _); [|discriminate].
            destruct (halts _); [intros H; injection H as <-; auto|]. intros H; eapply IH'; [|exact H|]; auto; lia. }
        destruct (consume lb o (Some next)) as [[x|]| |]; cbn [bind]; try discriminate.
        { destruct (halts _); [intros H; injection H as <-; auto|]. intros H; eapply IH'; [|exact H|]; auto; cbn in Hn; lia. }
        destruct (can_omit _); [|intros H; injection H as <-; split; reflexivity].
        destruct (halts _); [intros H; injection H as <-; auto|]. intros H; eapply IH'; [|exact H|]; auto; lia.
    + destruct (nth_error (positionals c) i) as [o|]; try discriminate.
      destruct (policy_consume lb o (Some v)) as [[x|]| |]; cbn [bind]; try discriminate.
      * intros H; eapply IH'; [|exact H|]; [lia|]. split; cbn; rewrite ?upd_length; reflexivity.
      * intros H; injection H as <-; split; reflexivity.
Qed.
Lemma parse_sizes lb c st args b st' : parse lb c st args = Ok (b, st') -> same_size st' st.
Proof.
  unfold parse. destruct (loop lb c args 0 st) as [r| |] eqn:E; cbn [bind]; try discriminate.
  apply (loop_sizes lb c (length args)) in E; [|lia]. destruct r as [s|pos h s]; [intros H; injection H as _ <-; auto|].
  destruct (_ && _); intros H; injection H as _ <-; auto.
Qed.

(** * Which objects a parser refers to *)
Record apart (n : nat) (s : list nat) (ps : list (list nat)) : Prop := {
  ap_s : NoDup s; ap_sn : Forall (fun i => i < n) s;
  ap_l : forall k l, nth_error ps k = Some l -> NoDup l;
  ap_n : forall k l, nth_error ps k = Some l -> Forall (fun i => i < n) l;
  ap_d : forall k k' l l' i, k <> k' -> nth_error ps k = Some l -> nth_error ps k' = Some l' -> In i l -> In i l' -> In i s
}.
Lemma Forall_S n (l : list nat) : Forall (fun i => i < n) l -> Forall (fun i => i < n + 1) l.
Proof. apply Forall_impl. lia. Qed.
Lemma fresh_nin n (l : list nat) : Forall (fun i => i < n) l -> ~ In n l.
Proof. intros H I. rewrite Forall_forall in H. apply H in I. lia. Qed.
Lemma NoDup_snoc n (l : list nat) : NoDup l -> Forall (fun i => i < n) l -> NoDup (l ++ [n]).
Proof.
  intros H F.
  apply Permutation_NoDup with (l := n :: l); [apply Permutation_cons_append|]. constructor; auto. now apply fresh_nin.
Qed.
Lemma apart_start : apart 0 [] [].
Proof. split; auto; try constructor; intros; destruct k; discriminate. Qed.
Lemma apart_static n s ps : apart n s ps -> apart (n + 1) (s ++ [n]) ps.
Proof.
  intros [H1 H2 H3 H4 H5]. split; auto.
  - now apply NoDup_snoc.
  - apply Forall_app. split; [now apply Forall_S|]. constructor; [lia|auto].
  - intros. apply Forall_S. eauto.
  - intros. apply in_or_app. left. eauto.
Qed.
Lemma nth_snoc {A} (l : list A) k x y : nth_error (l ++ [x]) k = Some y -> nth_error l k = Some y \/ k = length l /\ y = x.
Proof.
  intros H. destruct (Nat.lt_ge_cases k (length l)).
  - rewrite nth_error_app1 in H; auto.
  - rewrite nth_error_app2 in H by auto. destruct (k - length l) as [|m] eqn:E; cbn in H.
    + right. split; [lia|congruence].
    + destruct m; discriminate.
Qed.
Lemma apart_parser n s ps : apart n s ps -> apart n s (ps ++ [s]).
Proof.
  intros [H1 H2 H3 H4 H5]. split; auto.
  - intros k l H. apply nth_snoc in H. destruct H as [H|[_ ->]]; eauto.
  - intros k l H. apply nth_snoc in H. destruct H as [H|[_ ->]]; eauto.
  - intros k k' l l' i Hk H H' I I'. apply nth_snoc in H, H'.
    destruct H as [H|[-> ->]], H' as [H'|[-> ->]]; eauto.
Qed.
Lemma apart_parser_help n s ps : apart n s ps -> apart (n + 1) s (ps ++ [n :: s]).
Proof.
  intros [H1 H2 H3 H4 H5]. split; auto.
  - now apply Forall_S.
  - intros k l H. apply nth_snoc in H. destruct H as [H|[_ ->]]; eauto. constructor; auto. now apply fresh_nin.
  - intros k l H. apply nth_snoc in H. destruct H as [H|[_ ->]]; [apply Forall_S; eauto|]. constructor; [lia|now apply Forall_S].
  - intros k k' l l' i Hk H H' I I'. apply nth_snoc in H, H'.
    destruct H as [H|[-> ->]], H' as [H'|[-> ->]]; eauto.
    + destruct I' as [<-|I']; auto. exfalso. exact (fresh_nin _ _ (H4 _ _ H) I).
    + destruct I as [<-|I]; auto. exfalso. exact (fresh_nin _ _ (H4 _ _ H') I').
    + lia.
Qed.
Lemma apart_grow n s ps : apart n s ps -> apart (n + 1) s ps.
Proof. intros [H1 H2 H3 H4 H5]. split; auto; intros; apply Forall_S; eauto. Qed.
Lemma apart_add n s ps k l : apart n s ps -> nth_error ps k = Some l -> apart (n + 1) s (upd ps k (l ++ [n])).
Proof.
  intros [H1 H2 H3 H4 H5] Hk.
  assert (D : forall j m, nth_error (upd ps k (l ++ [n])) j = Some m ->
     nth_error ps j = Some m /\ j <> k \/ j = k /\ m = l ++ [n]).
  { intros j m. rewrite nth_upd. assert (k < length ps) by (apply nth_error_Some; congruence).
    destruct (k =? j) eqn:E; cbn [andb]; [replace (k <? length ps) with true by lia|]; intros H'.
    - right. apply Nat.eqb_eq in E. split; congruence.
    - left. apply Nat.eqb_neq in E. split; auto. }
  split; auto.
  - now apply Forall_S.
  - intros j m H. apply D in H. destruct H as [[H _]|[-> ->]]; eauto. apply NoDup_snoc; eauto.
  - intros j m H. apply D in H. destruct H as [[H _]|[-> ->]]; [apply Forall_S; eauto|].
    apply Forall_app. split; [apply Forall_S; eauto|]. constructor; [lia|auto].
  - intros j j' m m' i Hj H H' I I'. apply D in H, H'.
    destruct H as [[H Hn]|[-> ->]], H' as [[H' Hn']|[-> ->]]; eauto.
    + apply in_app_or in I'. destruct I' as [I'|[<-|[]]]; eauto. exfalso. exact (fresh_nin _ _ (H4 _ _ H) I).
    + apply in_app_or in I. destruct I as [I|[<-|[]]]; eauto. exfalso. exact (fresh_nin _ _ (H4 _ _ H') I').
    + lia.
Qed.

Definition apart_w (w : world) : Prop :=
  apart (length (w_opts w)) (w_sopts w) (map p_opts (w_parsers w))
  /\ apart (length (w_poss w)) (w_sposs w) (map p_poss (w_parsers w)).

Lemma fold_add_opt ids : forall p, fold_left add_opt ids p =
  Prs (p_opts p ++ ids) (p_poss p) (p_inline p) (p_slashes p) (p_collect p) (p_pass p) (p_help p) (p_extra p)
    (p_passthru p) (p_has_pass p) (p_error p).
Proof. induction ids as [|i ids IH]; intros p; cbn; [rewrite app_nil_r; now destruct p|]. rewrite IH. cbn. now rewrite <- app_assoc. Qed.
Lemma fold_add_pos ids : forall p, fold_left add_pos ids p =
  Prs (p_opts p) (p_poss p ++ ids) (p_inline p) (p_slashes p) (p_collect p) (p_pass p) (p_help p) (p_extra p)
    (p_passthru p) (p_has_pass p) (p_error p).
Proof. induction ids as [|i ids IH]; intros p; cbn; [rewrite app_nil_r; now destruct p|]. rewrite IH. cbn. now rewrite <- app_assoc. Qed.
(** The parser the constructor makes. *)
Definition made (w : world) (hlp : bool) : parser :=
  Prs ((if hlp then [length (w_opts w)] else []) ++ w_sopts w) (w_sposs w) false false false false hlp [] [] false None.
Definition with_help (w : world) (hlp : bool) : world := if hlp then new_opt w help_option else w.
Lemma step_parser lb w hlp : step lb w (EParser hlp) =
  Ok (World (w_opts (with_help w hlp)) (w_poss w) (w_sopts w) (w_sposs w) (w_parsers w ++ [made w hlp]), None).
Proof. destruct hlp; cbn [step]; rewrite fold_add_opt, fold_add_pos; cbn; reflexivity. Qed.

Lemma slot_get_inv {A} (l : list A) k x : slot_get l k = Ok x -> nth_error l k = Some x.
Proof. unfold slot_get. destruct nth_error; congruence. Qed.
Ltac slot H := let E := fresh "E" in
  match type of H with context [slot_get ?l ?k] => destruct (slot_get l k) eqn:E; cbn [bind] in H; try discriminate; apply slot_get_inv in E end.
Lemma nth_map {A B} (f : A -> B) l k x : nth_error l k = Some x -> nth_error (map f l) k = Some (f x).
Proof. intros H. now rewrite nth_error_map, H. Qed.

Lemma map_upd_keep {A B} (f : A -> B) l k p x : nth_error l k = Some p -> f x = f p -> map f (upd l k x) = map f l.
Proof. intros H E. rewrite map_upd, E. apply upd_same. now apply nth_map. Qed.
Lemma apart_leave w k p st : nth_error (w_parsers w) k = Some p -> apart_w w -> apart_w (leave w k p st).
Proof.
  intros Hk [H1 H2]. unfold apart_w, leave. cbn. rewrite !write_len.
  rewrite !(map_upd_keep _ _ _ p); auto.
Qed.
Lemma apart_step lb w e w' r : apart_w w -> step lb w e = Ok (w', r) -> apart_w w'.
Proof.
  intros [H1 H2] H. destruct e as [o|t|hlp|k o|k t|k m|k args|k].
  - injection H as <- _. split; cbn; auto. rewrite app_length. now apply apart_static.
  - injection H as <- _. split; cbn; auto. rewrite app_length. now apply apart_static.
  - rewrite step_parser in H. injection H as <- _. split; cbn; rewrite map_app; cbn; [|now apply apart_parser].
    destruct hlp; cbn; [rewrite app_length; now apply apart_parser_help|now apply apart_parser].
  - cbn [step] in H. slot H. injection H as <- _. split; cbn; rewrite ?app_length.
    + rewrite map_upd. cbn. apply apart_add; auto. now apply nth_map.
    + now rewrite (map_upd_keep _ _ _ a).
  - cbn [step] in H. slot H. injection H as <- _. split; cbn; rewrite ?app_length.
    + now rewrite (map_upd_keep _ _ _ a).
    + rewrite map_upd. cbn. apply apart_add; auto. now apply nth_map.
  - cbn [step] in H. slot H. injection H as <- _. split; cbn; rewrite !(map_upd_keep _ _ _ a); auto.
  - cbn [step] in H. slot H. destruct parse as [[b st]| |]; cbn [bind] in H; try discriminate. injection H as <- _.
    apply apart_leave; auto. now split.
  - cbn [step] in H. slot H. injection H as <- _. apply apart_leave; auto. now split.
Qed.

(** * Which options a parser has *)
Definition descs (w : world) : list optd := map fst (w_opts w).
Definition pdescs (w : world) : list policy := map fst (w_poss w).
Definition pick {A} (d : A) (l : list A) (ids : list nat) : list A := map (fun i => nth i l d) ids.
Arguments pick : simpl never.
Lemma pick_more {A} (d : A) l x ids : Forall (fun i => i < length l) ids -> pick d (l ++ x) ids = pick d l ids.
Proof. intros F. apply map_ext_in. intros i I. rewrite Forall_forall in F. rewrite app_nth1; auto. Qed.
Lemma pick_app {A} (d : A) l a b : pick d l (a ++ b) = pick d l a ++ pick d l b.
Proof. apply map_app. Qed.
Lemma pick_new {A} (d : A) l x n : n = length l -> pick d (l ++ [x]) [n] = [x].
Proof. intros ->. unfold pick. cbn. rewrite app_nth2 by lia. now rewrite Nat.sub_diag. Qed.
Lemma descs_snoc (os : list (optd * list value)) o : map fst (os ++ [(o, [])]) = map fst os ++ [o].
Proof. now rewrite map_app. Qed.
Lemma pdescs_snoc (os : list (policy * option value)) o : map fst (os ++ [(o, None)]) = map fst os ++ [o].
Proof. now rewrite map_app. Qed.
Lemma options_cfg w p : options (cfg_of w p) = pick help_option (descs w) (p_opts p).
Proof. cbn. apply map_ext. intros i. unfold opt_at, descs. symmetry. apply (map_nth fst (w_opts w) (help_option, [])). Qed.
Lemma positionals_cfg w p : positionals (cfg_of w p) = pick PBool (pdescs w) (p_poss p).
Proof. cbn. apply map_ext. intros i. unfold pos_at, pdescs. symmetry. apply (map_nth fst (w_poss w) (PBool, None)). Qed.

Lemma static_opts_app a b : static_opts (a ++ b) = static_opts a ++ static_opts b.
Proof. induction a as [|[] a IH]; cbn; auto. now rewrite IH. Qed.
Lemma static_poss_app a b : static_poss (a ++ b) = static_poss a ++ static_poss b.
Proof. induction a as [|[] a IH]; cbn; auto. now rewrite IH. Qed.
Lemma own_opts_app k a b : own_opts k (a ++ b) = own_opts k a ++ own_opts k b.
Proof. induction a as [|[] a IH]; cbn; auto. destruct (p =? k); cbn; now rewrite IH. Qed.
Lemma own_poss_app k a b : own_poss k (a ++ b) = own_poss k a ++ own_poss k b.
Proof. induction a as [|[] a IH]; cbn; auto. destruct (p =? k); cbn; now rewrite IH. Qed.
Lemma made_app a b : parsers_made (a ++ b) = parsers_made a + parsers_made b.
Proof. induction a as [|[] a IH]; cbn; auto; lia. Qed.

(** What is known of parser [p], the [k]-th, after the history [es]. *)
Definition registered (es : list event) (w : world) (k : nat) (p : parser) : Prop :=
  exists pre hlp post, es = pre ++ EParser hlp :: post /\ parsers_made pre = k
    /\ pick help_option (descs w) (p_opts p) = (if hlp then [help_option] else []) ++ static_opts pre ++ own_opts k post
    /\ pick PBool (pdescs w) (p_poss p) = static_poss pre ++ own_poss k post
    /\ p_help p = hlp
    /\ (forall m, match m with InlineValues => p_inline p | AllowSlashes => p_slashes p | CollectExtra => p_collect p
                  | AllowPassthrough => p_pass p end = true <-> asked k m post).
Record known (es : list event) (w : world) : Prop := {
  kn_apart : apart_w w;
  kn_s : pick help_option (descs w) (w_sopts w) = static_opts es;
  kn_sp : pick PBool (pdescs w) (w_sposs w) = static_poss es;
  kn_n : length (w_parsers w) = parsers_made es;
  kn_p : forall k p, nth_error (w_parsers w) k = Some p -> registered es w k p
}.
Lemma known_start : known [] start.
Proof. split; try reflexivity. { split; apply apart_start. } intros [] p; discriminate. Qed.

Lemma reg_bounds w k p : apart_w w -> nth_error (w_parsers w) k = Some p ->
  Forall (fun i => i < length (descs w)) (p_opts p) /\ Forall (fun i => i < length (pdescs w)) (p_poss p).
Proof.
  intros [H1 H2] Hp. unfold descs, pdescs. rewrite !map_length.
  split; [eapply (ap_n _ _ _ H1 k)|eapply (ap_n _ _ _ H2 k)]; now apply nth_map.
Qed.
Lemma statics_bounds w : apart_w w -> Forall (fun i => i < length (descs w)) (w_sopts w) /\ Forall (fun i => i < length (pdescs w)) (w_sposs w).
Proof. intros [H1 H2]. unfold descs, pdescs. rewrite !map_length. split; [apply (ap_sn _ _ _ H1)|apply (ap_sn _ _ _ H2)]. Qed.

(** A parser that the event does not touch. *)
Lemma registered_kept es w k p e w' : apart_w w -> nth_error (w_parsers w) k = Some p -> registered es w k p ->
  (exists x, descs w' = descs w ++ x) -> (exists x, pdescs w' = pdescs w ++ x) ->
  own_opts k [e] = [] -> own_poss k [e] = [] -> (forall m, e <> EMode k m) -> registered (es ++ [e]) w' k p.
Proof.
  intros A Hp (pre & hlp & post & E & Ek & R1 & R2 & R3 & R4) [x Hx] [y Hy] N1 N2 N3.
  exists pre, hlp, (post ++ [e]). destruct (reg_bounds w k p A Hp) as [B1 B2].
  rewrite Hx, Hy, !pick_more, own_opts_app, own_poss_app, N1, N2, !app_nil_r, R1, R2 by auto.
  split; [subst es; now rewrite <- app_assoc|]. repeat (split; [auto; fail|]). intros m. rewrite R4. unfold asked.
  rewrite in_app_iff. cbn. split; [auto|]. intros [H|[H|[]]]; auto. now apply N3 in H.
Qed.
(** The same parser with other contents. *)
Lemma registered_contents es w k p p' : p_opts p' = p_opts p -> p_poss p' = p_poss p -> p_help p' = p_help p ->
  p_inline p' = p_inline p -> p_slashes p' = p_slashes p -> p_collect p' = p_collect p -> p_pass p' = p_pass p ->
  registered es w k p -> registered es w k p'.
Proof.
  intros Ea Eb E1 E2 E3 E4 E5 (pre & hlp & post & H). exists pre, hlp, post. rewrite Ea, Eb, E1, E2, E3, E4, E5. exact H.
Qed.

Lemma known_step lb es w e w' r : known es w -> step lb w e = Ok (w', r) -> known (es ++ [e]) w'.
Proof.
  intros [A S SP N P] H. pose proof (apart_step lb w e w' r A H) as A'.
  destruct (statics_bounds w A) as [SB SPB].
  destruct e as [o|t|hlp|k o|k t|k m|k args|k].
  - injection H as <- _. split; auto; cbn.
    + unfold descs in *. cbn [w_opts]. rewrite descs_snoc, pick_app, pick_new, pick_more, S, static_opts_app; auto. now rewrite map_length.
    + rewrite static_poss_app. cbn. rewrite app_nil_r. exact SP.
    + rewrite made_app. cbn. lia.
    + intros k p Hp. eapply (registered_kept es w); eauto; try discriminate.
      * exists [o]. unfold descs. cbn. now rewrite map_app.
      * exists []. now rewrite app_nil_r.
  - injection H as <- _. split; auto; cbn.
    + rewrite static_opts_app. cbn. rewrite app_nil_r. exact S.
    + unfold pdescs in *. cbn [w_poss]. rewrite pdescs_snoc, pick_app, pick_new, pick_more, SP, static_poss_app; auto. now rewrite map_length.
    + rewrite made_app. cbn. lia.
    + intros k p Hp. eapply (registered_kept es w); eauto; try discriminate.
      * exists []. now rewrite app_nil_r.
      * exists [t]. unfold pdescs. cbn. now rewrite map_app.
  - rewrite step_parser in H. injection H as <- _.
    set (w' := World _ _ _ _ _) in *.
    assert (HD : exists x, descs w' = descs w ++ x /\ x = if hlp then [help_option] else []).
    { exists (if hlp then [help_option] else []). split; auto. unfold descs, w'. destruct hlp; cbn; [now rewrite map_app|now rewrite app_nil_r]. }
    destruct HD as (x & HD & Hx). assert (HP : pdescs w' = pdescs w) by reflexivity.
    split; auto.
    + change (w_sopts w') with (w_sopts w). rewrite HD, pick_more by auto. rewrite static_opts_app. cbn. now rewrite app_nil_r.
    + change (w_sposs w') with (w_sposs w). rewrite HP, static_poss_app. cbn. now rewrite app_nil_r.
    + cbn. rewrite app_length, made_app. cbn. lia.
    + intros k p Hp. cbn in Hp. apply nth_snoc in Hp. destruct Hp as [Hp|[-> ->]].
      * eapply (registered_kept es w); eauto; try discriminate. exists []. now rewrite app_nil_r.
      * exists es, hlp, []. split; [reflexivity|]. split; [auto|]. cbn [own_opts own_poss]. rewrite !app_nil_r.
        split; [|split; [|split; [reflexivity|]]].
        -- cbn [made p_opts]. rewrite pick_app, HD, (pick_more _ _ _ (w_sopts w)), S by auto. f_equal. subst x. destruct hlp; [|reflexivity].
           apply pick_new. unfold descs. now rewrite map_length.
        -- cbn [made p_poss]. rewrite HP. exact SP.
        -- intros m. unfold asked. cbn. destruct m; split; intuition discriminate.
  - cbn [step] in H. slot H. injection H as <- _. split; auto; cbn.
    + unfold descs in *. cbn [w_opts with_parser new_opt]. rewrite descs_snoc, pick_more, static_opts_app by auto. cbn. now rewrite app_nil_r.
    + rewrite static_poss_app. cbn. now rewrite app_nil_r.
    + rewrite upd_length, made_app. cbn. lia.
    + intros j p Hp. rewrite nth_upd in Hp. destruct (k =? j) eqn:Ekj; cbn [andb] in Hp.
      2: { eapply (registered_kept es w); eauto; try discriminate.
           - exists [o]. unfold descs. cbn. now rewrite map_app.
           - exists []. now rewrite app_nil_r.
           - cbn. now rewrite Ekj. }
      apply Nat.eqb_eq in Ekj. subst j. destruct (k <? length (w_parsers w)) eqn:El; [|].
      2: { exfalso; assert (k < length (w_parsers w)) by (apply nth_error_Some; congruence). lia. }
      injection Hp as <-. destruct (P k a E) as (pre & hlp & post & E1 & Ek & R1 & R2 & R3 & R4).
      destruct (reg_bounds w k a A E) as [B1 B2].
      exists pre, hlp, (post ++ [EOpt k o]). split; [subst es; now rewrite <- app_assoc|]. split; [auto|].
      rewrite own_opts_app, own_poss_app. cbn [own_opts own_poss]. rewrite Nat.eqb_refl, app_nil_r.
      split; [|split; [exact R2|split; [exact R3|]]].
      * cbn [add_opt p_opts]. unfold descs in *. cbn [w_opts with_parser new_opt].
        rewrite descs_snoc, pick_app, pick_new, pick_more, R1, <- !app_assoc by (auto; now rewrite map_length). reflexivity.
      * intros m. specialize (R4 m). unfold asked. rewrite in_app_iff. cbn [In]. rewrite <- R4 || idtac.
        destruct m; cbn in *; rewrite R4; unfold asked; intuition discriminate.
  - cbn [step] in H. slot H. injection H as <- _. split; auto; cbn.
    + rewrite static_opts_app. cbn. now rewrite app_nil_r.
    + unfold pdescs in *. cbn [w_poss with_parser new_pos]. rewrite pdescs_snoc, pick_more, static_poss_app by auto. cbn. now rewrite app_nil_r.
    + rewrite upd_length, made_app. cbn. lia.
    + intros j p Hp. rewrite nth_upd in Hp. destruct (k =? j) eqn:Ekj; cbn [andb] in Hp.
      2: { eapply (registered_kept es w); eauto; try discriminate.
           - exists []. now rewrite app_nil_r.
           - exists [t]. unfold pdescs. cbn. now rewrite map_app.
           - cbn. now rewrite Ekj. }
      apply Nat.eqb_eq in Ekj. subst j. destruct (k <? length (w_parsers w)) eqn:El; [|].
      2: { exfalso; assert (k < length (w_parsers w)) by (apply nth_error_Some; congruence). lia. }
      injection Hp as <-. destruct (P k a E) as (pre & hlp & post & E1 & Ek & R1 & R2 & R3 & R4).
      destruct (reg_bounds w k a A E) as [B1 B2].
      exists pre, hlp, (post ++ [EPos k t]). split; [subst es; now rewrite <- app_assoc|]. split; [auto|].
      rewrite own_opts_app, own_poss_app. cbn [own_opts own_poss]. rewrite Nat.eqb_refl, app_nil_r.
      split; [exact R1|split; [|split; [exact R3|]]].
      * cbn [add_pos p_poss]. unfold pdescs in *. cbn [w_poss with_parser new_pos].
        rewrite pdescs_snoc, pick_app, pick_new, pick_more, R2, <- !app_assoc by (auto; now rewrite map_length). reflexivity.
      * intros m. specialize (R4 m). unfold asked. rewrite in_app_iff. cbn [In].
        destruct m; cbn in *; rewrite R4; unfold asked; intuition discriminate.
  - cbn [step] in H. slot H. injection H as <- _. split; auto; cbn.
    + rewrite static_opts_app. cbn. now rewrite app_nil_r.
    + rewrite static_poss_app. cbn. now rewrite app_nil_r.
    + rewrite upd_length, made_app. cbn. lia.
    + intros j p Hp. rewrite nth_upd in Hp. destruct (k =? j) eqn:Ekj; cbn [andb] in Hp.
      2: { eapply (registered_kept es w); eauto; try discriminate; try (exists []; now rewrite app_nil_r).
           intros m' E'. apply Nat.eqb_neq in Ekj. congruence. }
      apply Nat.eqb_eq in Ekj. subst j. destruct (k <? length (w_parsers w)) eqn:El; [|].
      2: { exfalso; assert (k < length (w_parsers w)) by (apply nth_error_Some; congruence). lia. }
      injection Hp as <-. destruct (P k a E) as (pre & hlp & post & E1 & Ek & R1 & R2 & R3 & R4).
      exists pre, hlp, (post ++ [EMode k m]). split; [subst es; now rewrite <- app_assoc|]. split; [auto|].
      rewrite own_opts_app, own_poss_app. cbn [own_opts own_poss]. rewrite !app_nil_r.
      split; [exact R1|split; [exact R2|split; [exact R3|]]].
      intros m'. specialize (R4 m'). unfold asked in *. rewrite in_app_iff. cbn [In].
      destruct m, m'; cbn in *; rewrite ?R4; intuition congruence.
  - cbn [step] in H. slot H. destruct parse as [[b st]| |]; cbn [bind] in H; try discriminate. injection H as <- _.
    assert (HD : descs (leave w k a st) = descs w) by (unfold descs, leave; cbn; apply write_fst).
    assert (HPD : pdescs (leave w k a st) = pdescs w) by (unfold pdescs, leave; cbn; apply write_fst).
    split; auto; rewrite ?HD, ?HPD.
    + rewrite static_opts_app. cbn. now rewrite app_nil_r.
    + rewrite static_poss_app. cbn. now rewrite app_nil_r.
    + cbn. rewrite upd_length, made_app. cbn. lia.
    + intros j p Hp. cbn in Hp. rewrite nth_upd in Hp. destruct (k =? j) eqn:Ekj; cbn [andb] in Hp.
      2: { eapply (registered_kept es w); eauto; try discriminate; exists []; now rewrite app_nil_r. }
      apply Nat.eqb_eq in Ekj. subst j. destruct (k <? length (w_parsers w)) eqn:El; [|].
      2: { exfalso; assert (k < length (w_parsers w)) by (apply nth_error_Some; congruence). lia. }
      injection Hp as <-. apply registered_contents with (p := a); try reflexivity.
      eapply (registered_kept es w); eauto; try discriminate; exists []; now rewrite app_nil_r.
  - cbn [step] in H. slot H. injection H as <- _.
    set (st := reset _ _) in *.
    assert (HD : descs (leave w k a st) = descs w) by (unfold descs, leave; cbn; apply write_fst).
    assert (HPD : pdescs (leave w k a st) = pdescs w) by (unfold pdescs, leave; cbn; apply write_fst).
    split; auto; rewrite ?HD, ?HPD.
    + rewrite static_opts_app. cbn. now rewrite app_nil_r.
    + rewrite static_poss_app. cbn. now rewrite app_nil_r.
    + cbn. rewrite upd_length, made_app. cbn. lia.
    + intros j p Hp. cbn in Hp. rewrite nth_upd in Hp. destruct (k =? j) eqn:Ekj; cbn [andb] in Hp.
      2: { eapply (registered_kept es w); eauto; try discriminate; exists []; now rewrite app_nil_r. }
      apply Nat.eqb_eq in Ekj. subst j. destruct (k <? length (w_parsers w)) eqn:El; [|].
      2: { exfalso; assert (k < length (w_parsers w)) by (apply nth_error_Some; congruence). lia. }
      injection Hp as <-. apply registered_contents with (p := a); try reflexivity.
      eapply (registered_kept es w); eauto; try discriminate; exists []; now rewrite app_nil_r.
Qed.

Lemma run_known lb : forall es2 es w w' rs, known es w -> run lb w es2 = Ok (w', rs) -> known (es ++ es2) w'.
Proof.
  induction es2 as [|e es2 IH]; intros es w w' rs K H; cbn [run] in H.
  - injection H as <- _. now rewrite app_nil_r.
  - destruct (step lb w e) as [[w1 r]| |] eqn:E; cbn [bind] in H; try discriminate.
    destruct (run lb w1 es2) as [[w2 rs2]| |] eqn:E2; cbn [bind] in H; try discriminate. injection H as <- _.
    replace (es ++ e :: es2) with ((es ++ [e]) ++ es2) by now rewrite <- app_assoc.
    eapply IH; [|exact E2]. eapply known_step; eauto.
Qed.

(** * A parser alone *)
Definition private (w : world) (p : parser) : Prop :=
  (forall i, In i (p_opts p) -> ~ In i (w_sopts w)) /\ (forall i, In i (p_poss p) -> ~ In i (w_sposs w)).
Lemma same_view w w2 p : (forall i, In i (p_opts p) -> opt_at w2 i = opt_at w i) ->
  (forall i, In i (p_poss p) -> pos_at w2 i = pos_at w i) -> cfg_of w2 p = cfg_of w p /\ view w2 p = view w p.
Proof.
  intros H1 H2. unfold cfg_of, view.
  rewrite (map_ext_in (fun i => fst (opt_at w2 i)) (fun i => fst (opt_at w i)) (p_opts p)) by (intros; now rewrite H1).
  rewrite (map_ext_in (fun i => snd (opt_at w2 i)) (fun i => snd (opt_at w i)) (p_opts p)) by (intros; now rewrite H1).
  rewrite (map_ext_in (fun i => fst (pos_at w2 i)) (fun i => fst (pos_at w i)) (p_poss p)) by (intros; now rewrite H2).
  rewrite (map_ext_in (fun i => snd (pos_at w2 i)) (fun i => snd (pos_at w i)) (p_poss p)) by (intros; now rewrite H2).
  auto.
Qed.
Lemma ids_bounds w k p : apart_w w -> nth_error (w_parsers w) k = Some p ->
  Forall (fun i => i < length (w_opts w)) (p_opts p) /\ Forall (fun i => i < length (w_poss w)) (p_poss p).
Proof. intros A H. destruct (reg_bounds w k p A H) as [B1 B2]. unfold descs, pdescs in *. now rewrite !map_length in *. Qed.
Lemma view_grown w w2 k p x y : apart_w w -> nth_error (w_parsers w) k = Some p -> w_opts w2 = w_opts w ++ x -> w_poss w2 = w_poss w ++ y ->
  cfg_of w2 p = cfg_of w p /\ view w2 p = view w p.
Proof.
  intros A H Hx Hy. destruct (ids_bounds w k p A H) as [B1 B2]. rewrite Forall_forall in B1, B2.
  apply same_view; intros i I; unfold opt_at, pos_at; rewrite ?Hx, ?Hy, app_nth1; auto.
Qed.
Lemma view_other w k k' p p' st : apart_w w -> nth_error (w_parsers w) k = Some p -> private w p ->
  nth_error (w_parsers w) k' = Some p' -> k' <> k -> cfg_of (leave w k' p' st) p = cfg_of w p /\ view (leave w k' p' st) p = view w p.
Proof.
  intros [A1 A2] H [P1 P2] H' Hk. apply same_view; intros i I; unfold opt_at, pos_at; cbn; apply write_other; intros I'.
  - apply (P1 i I). eapply (ap_d _ _ _ A1 k k'); eauto using nth_map.
  - apply (P2 i I). eapply (ap_d _ _ _ A2 k k'); eauto using nth_map.
Qed.
Lemma view_leave w k p st : apart_w w -> nth_error (w_parsers w) k = Some p -> same_size st (view w p) ->
  exists p', nth_error (w_parsers (leave w k p st)) k = Some p' /\ p_opts p' = p_opts p /\ p_poss p' = p_poss p
    /\ cfg_of (leave w k p st) p' = cfg_of w p /\ view (leave w k p st) p' = st.
Proof.
  intros A H [S1 S2]. destruct (ids_bounds w k p A H) as [B1 B2]. destruct A as [A1 A2]. eexists. split.
  { cbn. rewrite nth_upd, Nat.eqb_refl. replace (k <? length (w_parsers w)) with true; [reflexivity|].
    symmetry. apply Nat.ltb_lt. apply nth_error_Some. congruence. }
  split; [reflexivity|]. split; [reflexivity|]. split.
  - assert (E : forall w p p', options (cfg_of w p') = options (cfg_of w p) -> positionals (cfg_of w p') = positionals (cfg_of w p) -> True) by auto.
    clear E. set (p' := Prs _ _ _ _ _ _ _ _ _ _ _).
    assert (E1 : options (cfg_of (leave w k p st) p') = options (cfg_of w p)).
    { rewrite !options_cfg. unfold descs. cbn. now rewrite write_fst. }
    assert (E2 : positionals (cfg_of (leave w k p st) p') = positionals (cfg_of w p)).
    { rewrite !positionals_cfg. unfold pdescs. cbn. now rewrite write_fst. }
    cbn in E1, E2. unfold cfg_of. cbn. now rewrite E1, E2.
  - unfold view, opt_at, pos_at, leave. cbn. cbn in S1, S2. rewrite !map_length in S1, S2.
    rewrite !write_same; auto.
    + now destruct st.
    + eapply (ap_l _ _ _ A2 k). now apply nth_map.
    + eapply (ap_l _ _ _ A1 k). now apply nth_map.
Qed.

(** One event, seen from the [k]-th parser. *)
Definition next (lb : Z) (k : nat) (c : cfg) (st : pstate) (e : event) : outcome (cfg * pstate * list bool) := alone lb k c st [e].
Lemma alone_cons lb k c st e es : alone lb k c st (e :: es) =
  do (x, bs) <- next lb k c st e; do (y, bs2) <- alone lb k (fst x) (snd x) es; Ok (y, bs ++ bs2).
Proof.
  assert (I : forall c st, alone lb k c st es = do (y, bs2) <- alone lb k c st es; Ok (y, [] ++ bs2)).
  { intros c' st'. destruct (alone lb k c' st' es) as [[y bs]| |]; reflexivity. }
  destruct e as [o|t|hlp|k' o|k' t|k' m|k' args|k']; cbn [alone next]; try (cbn [bind fst snd]; apply I);
    destruct (k' =? k); cbn [bind fst snd]; try apply I.
  destruct (parse lb c st args) as [[b st1]| |]; cbn [bind fst snd]; try reflexivity.
Qed.
Definition tag (e : event) (r : option bool) (rs : list (nat * bool)) : list (nat * bool) :=
  match e, r with EParse k _, Some b => (k, b) :: rs | _, _ => rs end.
Lemma sim_step lb w e w' r k p : apart_w w -> nth_error (w_parsers w) k = Some p -> private w p -> step lb w e = Ok (w', r) ->
  exists p', nth_error (w_parsers w') k = Some p' /\ private w' p'
    /\ next lb k (cfg_of w p) (view w p) e = Ok (cfg_of w' p', view w' p', results_of k (tag e r [])).
Proof.
  intros A Hp Pr H. destruct (ids_bounds w k p A Hp) as [B1 B2].
  destruct e as [o|t|hlp|k' o|k' t|k' m|k' args|k'].
  - injection H as <- <-. exists p. split; [exact Hp|]. split.
    + destruct Pr as [P1 P2]. split; cbn; [|exact P2]. intros i I I'. apply in_app_or in I'. destruct I' as [I'|[<-|[]]]; [now apply (P1 i I)|].
      exact (fresh_nin _ _ B1 I).
    + cbn. match goal with |- context [cfg_of ?w2 p] => destruct (view_grown w w2 k p [(o, [])] [] A Hp) as [-> ->] end; auto. now rewrite app_nil_r.
  - injection H as <- <-. exists p. split; [exact Hp|]. split.
    + destruct Pr as [P1 P2]. split; cbn; [exact P1|]. intros i I I'. apply in_app_or in I'. destruct I' as [I'|[<-|[]]]; [now apply (P2 i I)|].
      exact (fresh_nin _ _ B2 I).
    + cbn. match goal with |- context [cfg_of ?w2 p] => destruct (view_grown w w2 k p [] [(t, None)] A Hp) as [-> ->] end; auto. now rewrite app_nil_r.
  - rewrite step_parser in H. injection H as <- <-. exists p. split; [cbn; rewrite nth_error_app1; [exact Hp|apply nth_error_Some; congruence]|].
    split; [exact Pr|]. cbn.
    match goal with |- context [cfg_of ?w2 p] => destruct (view_grown w w2 k p (if hlp then [(help_option, [])] else []) [] A Hp) as [-> ->] end; auto.
    + destruct hlp; cbn; now rewrite ?app_nil_r.
    + now rewrite app_nil_r.
  - cbn [step] in H. slot H. injection H as <- <-. unfold next. cbn. destruct (k' =? k) eqn:Ek.
    + apply Nat.eqb_eq in Ek. subst k'. assert (a = p) by congruence. subst a.
      exists (add_opt p (length (w_opts w))). split; [|split].
      * rewrite nth_upd, Nat.eqb_refl. replace (k <? length (w_parsers w)) with true; [reflexivity|].
        symmetry. apply Nat.ltb_lt, nth_error_Some. congruence.
      * destruct Pr as [P1 P2]. split; cbn; [|exact P2]. intros i I I'. apply in_app_or in I. destruct I as [I|[<-|[]]]; [now apply (P1 i I)|].
        destruct A as [A1 _]. exact (fresh_nin _ _ (ap_sn _ _ _ A1) I').
      * assert (V : cfg_of (new_opt w o) p = cfg_of w p /\ view (new_opt w o) p = view w p).
        { apply (view_grown w (new_opt w o) k p [(o, [])] [] A Hp); cbn; now rewrite ?app_nil_r. }
        destruct V as [V1 V2]. rewrite <- V1, <- V2. unfold with_opt, more_vals, cfg_of, view, opt_at, pos_at. cbn.
        rewrite !map_app. cbn. rewrite !app_nth2, Nat.sub_diag by lia. reflexivity.
    + exists p. split; [rewrite nth_upd, Ek; exact Hp|]. split; [exact Pr|].
      match goal with |- context [cfg_of ?w2 p] => destruct (view_grown w w2 k p [(o, [])] [] A Hp) as [-> ->] end; auto. now rewrite app_nil_r.
  - cbn [step] in H. slot H. injection H as <- <-. unfold next. cbn. destruct (k' =? k) eqn:Ek.
    + apply Nat.eqb_eq in Ek. subst k'. assert (a = p) by congruence. subst a.
      exists (add_pos p (length (w_poss w))). split; [|split].
      * rewrite nth_upd, Nat.eqb_refl. replace (k <? length (w_parsers w)) with true; [reflexivity|].
        symmetry. apply Nat.ltb_lt, nth_error_Some. congruence.
      * destruct Pr as [P1 P2]. split; cbn; [exact P1|]. intros i I I'. apply in_app_or in I. destruct I as [I|[<-|[]]]; [now apply (P2 i I)|].
        destruct A as [_ A2]. exact (fresh_nin _ _ (ap_sn _ _ _ A2) I').
      * assert (V : cfg_of (new_pos w t) p = cfg_of w p /\ view (new_pos w t) p = view w p).
        { apply (view_grown w (new_pos w t) k p [] [(t, None)] A Hp); cbn; now rewrite ?app_nil_r. }
        destruct V as [V1 V2]. rewrite <- V1, <- V2. unfold with_pos, more_pvals, cfg_of, view, opt_at, pos_at. cbn.
        rewrite !map_app. cbn. rewrite !app_nth2, Nat.sub_diag by lia. reflexivity.
    + exists p. split; [rewrite nth_upd, Ek; exact Hp|]. split; [exact Pr|].
      match goal with |- context [cfg_of ?w2 p] => destruct (view_grown w w2 k p [] [(t, None)] A Hp) as [-> ->] end; auto. now rewrite app_nil_r.
  - cbn [step] in H. slot H. injection H as <- <-. unfold next. cbn. destruct (k' =? k) eqn:Ek.
    + apply Nat.eqb_eq in Ek. subst k'. assert (a = p) by congruence. subst a. exists (set_mode p m). split; [|split; [exact Pr|reflexivity]].
      rewrite nth_upd, Nat.eqb_refl. replace (k <? length (w_parsers w)) with true; [reflexivity|].
      symmetry. apply Nat.ltb_lt, nth_error_Some. congruence.
    + exists p. split; [rewrite nth_upd, Ek; exact Hp|]. split; [exact Pr|reflexivity].
  - cbn [step] in H. slot H. destruct (parse lb (cfg_of w a) (view w a) args) as [[b st]| |] eqn:Ep; cbn [bind] in H; try discriminate.
    injection H as <- <-. unfold next. cbn [alone]. destruct (k' =? k) eqn:Ek.
    + apply Nat.eqb_eq in Ek. subst k'. assert (a = p) by congruence. subst a. rewrite Ep. cbn [bind].
      destruct (view_leave w k p st A Hp (parse_sizes _ _ _ _ _ _ Ep)) as (p' & Q1 & Q2 & Q3 & Q4 & Q5).
      exists p'. split; [exact Q1|]. split; [destruct Pr as [P1 P2]; split; rewrite ?Q2, ?Q3; auto|]. rewrite Q4, Q5. cbn. now rewrite Nat.eqb_refl.
    + assert (k' <> k) by now apply Nat.eqb_neq.
      exists p. split; [cbn; rewrite nth_upd, Ek; exact Hp|]. split; [exact Pr|].
      destruct (view_other w k k' p a st A Hp Pr E H) as [-> ->]. cbn. now rewrite Ek.
  - cbn [step] in H. slot H. injection H as <- <-. unfold next. cbn [alone]. destruct (k' =? k) eqn:Ek.
    + apply Nat.eqb_eq in Ek. subst k'. assert (a = p) by congruence. subst a.
      destruct (view_leave w k p (reset (cfg_of w p) (view w p)) A Hp) as (p' & Q1 & Q2 & Q3 & Q4 & Q5).
      { unfold reset, same_size, view. cbn. now rewrite !map_length. }
      exists p'. split; [exact Q1|]. split; [destruct Pr as [P1 P2]; split; rewrite ?Q2, ?Q3; auto|]. now rewrite Q4, Q5.
    + assert (k' <> k) by now apply Nat.eqb_neq.
      exists p. split; [cbn; rewrite nth_upd, Ek; exact Hp|]. split; [exact Pr|].
      destruct (view_other w k k' p a (reset (cfg_of w a) (view w a)) A Hp Pr E H) as [-> ->]. reflexivity.
Qed.
Lemma results_tag k e r rs : results_of k (tag e r rs) = results_of k (tag e r []) ++ results_of k rs.
Proof. destruct e, r; cbn; auto. destruct (p =? k); reflexivity. Qed.
Lemma sim_run lb : forall es w w' rs k p, apart_w w -> nth_error (w_parsers w) k = Some p -> private w p -> run lb w es = Ok (w', rs) ->
  exists p', nth_error (w_parsers w') k = Some p'
    /\ alone lb k (cfg_of w p) (view w p) es = Ok (cfg_of w' p', view w' p', results_of k rs).
Proof.
  induction es as [|e es IH]; intros w w' rs k p A Hp Pr H; cbn [run] in H.
  - injection H as <- <-. exists p. auto.
  - destruct (step lb w e) as [[w1 r]| |] eqn:E; cbn [bind] in H; try discriminate.
    destruct (run lb w1 es) as [[w2 rs2]| |] eqn:E2; cbn [bind] in H; try discriminate. injection H as <- <-.
    destruct (sim_step lb w e w1 r k p A Hp Pr E) as (p1 & H1 & P1 & N1).
    destruct (IH w1 w2 rs2 k p1 (apart_step lb w e w1 r A E) H1 P1 E2) as (p' & H' & AL).
    exists p'. split; [exact H'|]. rewrite alone_cons, N1. cbn [bind fst snd]. rewrite AL. cbn [bind].
    change (match e with EParse k0 _ => match r with Some b => (k0, b) :: rs2 | None => rs2 end | _ => rs2 end) with (tag e r rs2).
    now rewrite (results_tag k e r rs2).
Qed.
Lemma run_app lb : forall a w b, run lb w (a ++ b) =
  do (w, rs) <- run lb w a; do (w, rs2) <- run lb w b; Ok (w, rs ++ rs2).
Proof.
  induction a as [|e a IH]; intros w b; cbn [app run bind].
  - destruct (run lb w b) as [[w2 rs2]| |]; reflexivity.
  - destruct (step lb w e) as [[w1 r]| |]; cbn [bind]; try reflexivity. rewrite IH.
    destruct (run lb w1 a) as [[w2 rs2]| |]; cbn [bind]; try reflexivity.
    destruct (run lb w2 b) as [[w3 rs3]| |]; cbn [bind]; try reflexivity. destruct e, r; reflexivity.
Qed.
(** Results of calls that precede the construction are of other parsers. *)
Lemma results_before lb : forall es w w' rs k, run lb w es = Ok (w', rs) -> length (w_parsers w) + parsers_made es <= k -> results_of k rs = [].
Proof.
  induction es as [|e es IH]; intros w w' rs k H L; cbn [run] in H.
  - injection H as <- <-. reflexivity.
  - destruct (step lb w e) as [[w1 r]| |] eqn:E; cbn [bind] in H; try discriminate.
    destruct (run lb w1 es) as [[w2 rs2]| |] eqn:E2; cbn [bind] in H; try discriminate. injection H as <- <-.
    assert (IH1 : results_of k rs2 = []).
    { eapply IH; [exact E2|]. clear -E L. destruct e as [o|t|hlp|k' o|k' t|k' m|k' args|k']; try (rewrite step_parser in E); cbn [step] in E.
      - injection E as <- _. exact L.
      - injection E as <- _. exact L.
      - injection E as <- _. cbn in *. rewrite app_length. cbn. lia.
      - slot E. injection E as <- _. cbn. now rewrite upd_length.
      - slot E. injection E as <- _. cbn. now rewrite upd_length.
      - slot E. injection E as <- _. cbn. now rewrite upd_length.
      - slot E. destruct parse as [[? ?]| |]; try discriminate. injection E as <- _. cbn. now rewrite upd_length.
      - slot E. injection E as <- _. cbn. now rewrite upd_length. }
    destruct e; auto. destruct r; auto. cbn. destruct (p =? k) eqn:Ek; auto. exfalso. apply Nat.eqb_eq in Ek. subst p.
    cbn [step] in E. slot E. cbn in L. assert (k < length (w_parsers w)) by (apply nth_error_Some; congruence). lia.
Qed.
