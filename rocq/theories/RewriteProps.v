(** Property theorems C89 and C90: TextRewriter. *)
From Verif Require Import Base RewriteModel RewriteSpec RewriteProofs.
Local Open Scope nat_scope.
Local Open Scope list_scope.

(** * C89 *)
(** Edits at distinct offsets inside the text that do not overlap, registered in any order ([sorted] is whatever
    std::sort made of them): emit() returns the text with exactly these edits, in debug and release builds, and has
    used up the edits.  Partial: Replace and Remove must have non-empty ranges. *)
Theorem C89_edits_applied_partial : forall char w debug (text : list char) ops sorted,
  (N.of_nat (length text) < 2 ^ w - 1)%N ->
  sorted_by_offset ops sorted -> all_apart ops -> Forall (inside text) ops -> Forall nonempty_span ops ->
  emit w debug text sorted = Ok (edited ops 0 text, []).
Proof.
  intros char w debug text ops sorted Hw Hs Ha Hi Hn. unfold emit. change 0%N with (N.of_nat 0).
  rewrite (loop_ok char w debug (length text) text 0 sorted (le_n _)).
  - cbn [bind]. unfold assert_. rewrite andb_false_r. cbn [bind]. rewrite (edited_perm char ops sorted (proj1 Hs) Ha). reflexivity.
  - cbn [Nat.add]. eapply sorted_chain; eauto.
  - exact Hw.
Qed.
Print Assumptions C89_edits_applied_partial.

(** Refuted for an empty range: replacing (or removing) nothing takes away the character at that position. *)
Lemma loop_no_ops : forall char w debug (text : list char) i ig, (ig <= i)%N \/ ig = npos w ->
  emit_loop w debug text i [] ig = Ok (text, []).
Proof.
  intros char w debug. induction text as [|ch text IH]; intros i ig H; [reflexivity|]. cbn [emit_loop].
  replace (negb (ig =? npos w)%N && (i <? ig)%N) with false.
  - unfold assert_. rewrite andb_false_r. cbn [bind]. rewrite IH by auto. reflexivity.
  - symmetry. destruct H as [H| ->]; [apply andb_false_iff; right; apply N.ltb_ge; lia|now rewrite N.eqb_refl].
Qed.
Lemma loop_empty_span : forall char w debug k o (t : list char), (k = Replace \/ (k = Remove /\ t = [])) ->
  forall text i, i <= o < i + length text -> (N.of_nat (i + length text) < 2 ^ w - 1)%N ->
  emit_loop w debug text (N.of_nat i) [Op k (N.of_nat o) 0%N t] (npos w)
  = Ok (firstn (o - i) text ++ t ++ skipn (S (o - i)) text, []).
Proof.
  intros char w debug k o t Hk. induction text as [|ch text IH]; intros i Hi Hw; [cbn in Hi; lia|].
  cbn [emit_loop length] in *. rewrite N.eqb_refl. cbn [negb andb op_offset op_kind op_length op_text].
  unfold assert_ at 1. replace (N.of_nat i <=? N.of_nat o)%N with true by (symmetry; apply N.leb_le; lia).
  rewrite andb_false_r. cbn [bind]. replace (N.of_nat i + 1)%N with (N.of_nat (S i)) by lia.
  destruct (N.eqb_spec (N.of_nat o) (N.of_nat i)) as [E|E]; cbn [negb].
  - assert (o = i) by lia. subst o. rewrite Nat.sub_diag. cbn [firstn skipn app].
    assert (Eu : uadd w (N.of_nat i) 0 = N.of_nat i) by (unfold uadd; rewrite N.add_0_r; apply N.mod_small; lia).
    rewrite Eu. destruct Hk as [->|[-> ->]]; rewrite loop_no_ops by (left; lia); reflexivity.
  - rewrite IH by lia. cbn [bind]. replace (o - i) with (S (o - S i)) by lia. reflexivity.
Qed.
Theorem C89_empty_range_refuted : forall char w debug (text : list char) o new,
  o < length text -> (N.of_nat (length text) < 2 ^ w - 1)%N ->
  emit w debug text (replace w [] (N.of_nat o) (N.of_nat o) new) = Ok (firstn o text ++ new ++ skipn (S o) text, [])
  /\ emit w debug text (remove w [] (N.of_nat o) (N.of_nat o)) = Ok (firstn o text ++ skipn (S o) text, []).
Proof.
  intros char w debug text o new Ho Hw.
  assert (Hz : usub w (N.of_nat o) (N.of_nat o) = 0%N).
  { unfold usub. assert (Hlt : (N.of_nat o < 2 ^ w)%N) by lia. rewrite (N.mod_small _ _ Hlt).
    replace (N.of_nat o + (2 ^ w - N.of_nat o))%N with (2 ^ w)%N by lia. apply N.mod_same. lia. }
  unfold replace, remove. cbn [app]. rewrite !Hz. unfold emit. change 0%N with (N.of_nat 0) at 1 3. split.
  - rewrite (loop_empty_span char w debug Replace o new (or_introl eq_refl) text 0) by (cbn [Nat.add]; lia).
    cbn [bind]. unfold assert_. rewrite andb_false_r, Nat.sub_0_r. reflexivity.
  - rewrite (loop_empty_span char w debug Remove o [] (or_intror (conj eq_refl eq_refl)) text 0) by (cbn [Nat.add]; lia).
    cbn [bind]. unfold assert_. rewrite andb_false_r, Nat.sub_0_r. reflexivity.
Qed.
Print Assumptions C89_empty_range_refuted.

(** A case with all four kinds, registered out of order; and the same text through the public calls. *)
Definition demo_text : list N := [10; 11; 12; 13; 14; 15; 16; 17]%N.
Definition demo_ops : list (operation N) :=
  (insert_after (remove 64 (insert_at (replace 64 [] 2 4 [100; 101]) 1 [200]) 5 6) 7 [300])%N.
Definition demo_sorted : list (operation N) :=
  [Op InsertAt 1 0 [200]; Op Replace 2 2 [100; 101]; Op Remove 5 1 []; Op InsertAfter 7 0 [300]]%N.
Example C89_nonvacuous :
  sorted_by_offset demo_ops demo_sorted /\ all_apart demo_ops /\ Forall (inside demo_text) demo_ops /\ Forall nonempty_span demo_ops
  /\ edited demo_ops 0 demo_text = [10; 200; 11; 100; 101; 14; 16; 17; 300]%N
  /\ emit 64 true demo_text demo_sorted = Ok ([10; 200; 11; 100; 101; 14; 16; 17; 300]%N, []).
Proof.
  assert (E : demo_ops = [Op Replace 2 2 [100; 101]; Op InsertAt 1 0 [200]; Op Remove 5 1 []; Op InsertAfter 7 0 [300]]%N)
    by (vm_compute; reflexivity).
  split; [|split; [|split; [|split; [|split]]]]; rewrite ?E.
  - split; [apply perm_swap|]. intros i j a b Hij Ha Hb.
    do 4 (destruct i as [|i]; [do 4 (destruct j as [|j]; [try lia; cbn in Ha, Hb; injection Ha as <-; injection Hb as <-; cbn; lia|]);
      cbn in Hb; destruct j; discriminate|]). cbn in Ha. destruct i; discriminate.
  - repeat constructor; cbn; lia.
  - do 4 (constructor; [split; [cbn; lia|intros [|]; try discriminate; cbn; lia]|]). constructor.
  - do 4 (constructor; [intros [|]; try discriminate; cbn; lia|]). constructor.
  - reflexivity.
  - vm_compute. reflexivity.
Qed.

(** * C90 *)
(** Refuted, debug builds: with two edits at one offset, or one at or beyond the end of the text, emit() never
    returns: it fails an assertion. *)
Lemma loop_fails_only : forall char w debug (text : list char) i q ig,
  (exists r, emit_loop w debug text i q ig = Ok r) \/ emit_loop w debug text i q ig = Fault AssertFail.
Proof.
  intros char w debug. induction text as [|ch text IH]; intros i q ig; [left; eexists; reflexivity|]. cbn [emit_loop].
  destruct (negb _ && _); [apply IH|]. unfold assert_. destruct (debug && _); cbn [bind]; [now right|].
  assert (B : forall q ig (f : list char -> list char),
    (exists r, (do (out, qq) <- emit_loop w debug text (i + 1) q ig; Ok (f out, qq)) = Ok r)
    \/ (do (out, qq) <- emit_loop w debug text (i + 1) q ig; Ok (f out, qq)) = Fault AssertFail).
  { intros q0 ig0 f. destruct (IH (i + 1)%N q0 ig0) as [[[a b] E]|E]; rewrite E; cbn [bind]; eauto. }
  destruct q as [|op q]; [apply (B [] (npos w) (cons ch))|].
  destruct (negb (op_offset op =? i)%N); [apply (B _ _ (cons ch))|].
  destruct (op_kind op); [apply (B _ _ (fun o => op_text op ++ o))|apply IH|apply (B _ _ (fun o => op_text op ++ ch :: o))|
                          apply (B _ _ (fun o => ch :: op_text op ++ o))].
Qed.
(** What a debug build checks: emit() returns only if every edit has been applied, which requires distinct offsets
    inside the text. *)
Theorem C90_returns_only_if_all_applied_partial : forall char w (text : list char) ops sorted r,
  Permutation ops sorted -> emit w true text sorted = Ok r ->
  snd r = [] /\ NoDup (map offset ops) /\ (forall op, In op ops -> offset op < length text).
Proof.
  intros char w text ops sorted [out q] P H. unfold emit in H. change 0%N with (N.of_nat 0) in H.
  destruct (emit_loop w true text (N.of_nat 0) sorted (npos w)) as [[o1 q1]| |] eqn:E; cbn [bind] in H; try discriminate.
  destruct (loop_inv char w true eq_refl _ _ _ _ _ _ E) as (used & -> & B & C).
  destruct q1; [|discriminate]. cbn in H. injection H as <- <-. rewrite app_nil_r in P. split; [reflexivity|]. split.
  - eapply Permutation_NoDup; [apply Permutation_map, Permutation_sym, P|exact C].
  - intros op Hin. apply (B op). eapply Permutation_in; eauto.
Qed.
Print Assumptions C90_returns_only_if_all_applied_partial.
Theorem C90_debug_refuted : forall char w (text : list char) ops sorted,
  Permutation ops sorted ->
  (~ NoDup (map offset ops) \/ exists op, In op ops /\ length text <= offset op) ->
  emit w true text sorted = Fault AssertFail.
Proof.
  intros char w text ops sorted P H.
  assert (No : forall r, emit w true text sorted <> Ok r).
  { intros r E. destruct (C90_returns_only_if_all_applied_partial char w text ops sorted r P E) as (_ & N & L).
    destruct H as [H|(op & Hin & Hl)]; [contradiction|]. specialize (L op Hin). lia. }
  revert No. unfold emit. destruct (loop_fails_only char w true text 0%N sorted (npos w)) as [[[out q] E]|E]; rewrite E; cbn [bind].
  - destruct q; cbn; intros No; [exfalso; now apply (No (out, []))|reflexivity].
  - reflexivity.
Qed.
Print Assumptions C90_debug_refuted.
(** Release builds: an edit at the end of the text is silently lost, and a second edit at an offset blocks itself and
    every later edit: only the first is applied. *)
Theorem C90_release_end_refuted : forall char w (text : list char) op,
  offset op = length text -> (N.of_nat (length text) < 2 ^ w - 1)%N ->
  emit w false text [op] = Ok (text, [op]).
Proof.
  intros char w text op Ho Hw. unfold emit. change 0%N with (N.of_nat 0).
  assert (G : forall (text : list char) i, i + length text = offset op ->
    emit_loop w false text (N.of_nat i) [op] (npos w) = Ok (text, [op])).
  { induction text0 as [|ch t IH]; intros i Hi; [reflexivity|]. cbn [emit_loop length] in *. rewrite N.eqb_refl. cbn [negb andb assert_ bind].
    replace (op_offset op =? N.of_nat i)%N with false by (symmetry; apply N.eqb_neq; unfold offset in Hi; lia). cbn [negb].
    replace (N.of_nat i + 1)%N with (N.of_nat (S i)) by lia. rewrite IH by lia. reflexivity. }
  rewrite (G text 0) by (cbn; lia). reflexivity.
Qed.
Print Assumptions C90_release_end_refuted.
Theorem C90_release_same_offset_refuted : forall char w (text : list char) a b rest,
  (N.of_nat (length text) < 2 ^ w - 1)%N -> inside text a -> nonempty_span a -> offset b = offset a ->
  emit w false text (a :: b :: rest) = Ok (edited [a] 0 text, b :: rest).
Proof.
  intros char w text a b rest Hw Hi Hn Hb. unfold emit.
  assert (One : emit_loop w false text 0 [a] (npos w) = Ok (edited [a] 0 text, [])).
  { change 0%N with (N.of_nat 0). apply (loop_ok char w false (length text)); [lia| |exact Hw]. cbn [Nat.add].
    apply (sorted_chain char text [a] [a]).
    - split; [apply Permutation_refl|]. intros i j x y Hij Hx Hy. destruct j as [|[|j]]; try discriminate. lia.
    - repeat constructor.
    - constructor; [exact Hi|constructor].
    - constructor; [exact Hn|constructor]. }
  assert (G : forall (text : list char) i out, i <= offset a < i + length text -> (N.of_nat (i + length text) < 2 ^ w - 1)%N ->
    (is_span a -> offset a + N.to_nat (op_length a) <= i + length text) ->
    emit_loop w false text (N.of_nat i) [a] (npos w) = Ok (out, []) ->
    emit_loop w false text (N.of_nat i) (a :: b :: rest) (npos w) = Ok (out, b :: rest)).
  { clear One Hi Hw text. induction text as [|ch t IH]; intros i out Hi Hw Hsp H; [cbn in Hi; lia|].
    cbn [emit_loop length] in *. rewrite N.eqb_refl in *. cbn [negb andb assert_ bind] in *.
    replace (N.of_nat i + 1)%N with (N.of_nat (S i)) in * by lia.
    assert (Tail : forall t k ig, (ig = npos w \/ ig < npos w)%N -> offset a < k ->
      forall out, emit_loop w false t (N.of_nat k) [] ig = Ok (out, []) ->
      emit_loop w false t (N.of_nat k) (b :: rest) ig = Ok (out, b :: rest)).
    { clear - Hb. induction t as [|c t IHt]; intros k ig Hig Hk out H; [cbn in *; now injection H as <-|].
      cbn [emit_loop] in *. destruct (negb (ig =? npos w)%N && (N.of_nat k <? ig)%N).
      - replace (N.of_nat k + 1)%N with (N.of_nat (S k)) in * by lia. apply IHt; auto.
      - cbn [assert_ andb bind] in *. replace (op_offset b =? N.of_nat k)%N with false by (symmetry; apply N.eqb_neq; unfold offset in *; lia).
        cbn [negb]. replace (N.of_nat k + 1)%N with (N.of_nat (S k)) in * by lia.
        destruct (emit_loop w false t (N.of_nat (S k)) [] (npos w)) as [[o1 q1]| |] eqn:E; try discriminate.
        cbn [bind] in H. injection H as <- Hq. subst q1. rewrite (IHt (S k) (npos w) (or_introl eq_refl) ltac:(lia) o1 E). reflexivity. }
    destruct (N.eqb_spec (op_offset a) (N.of_nat i)) as [E|E]; cbn [negb] in *.
    - assert (Hu : is_span a -> (uadd w (N.of_nat i) (op_length a) < npos w)%N).
      { intros Hs. specialize (Hsp Hs). unfold npos, uadd. unfold offset in Hsp. rewrite E, Nat2N.id in Hsp. rewrite N.mod_small; lia. }
      assert (Hk : offset a < S i) by (unfold offset; rewrite E; lia).
      destruct (op_kind a) eqn:Ek;
      repeat match type of H with
      | bind (emit_loop ?a1 ?a2 ?a3 ?a4 [] ?a6) _ = _ =>
          destruct (emit_loop a1 a2 a3 a4 [] a6) as [[o1 q1]| |] eqn:El; cbn [bind] in H; try discriminate; injection H as <- Hq; subst q1
      end.
      + rewrite (Tail t (S i) _ (or_intror (Hu (or_introl Ek))) Hk o1 El). reflexivity.
      + apply Tail; auto. right. apply Hu. now right.
      + rewrite (Tail t (S i) _ (or_introl eq_refl) Hk o1 El). reflexivity.
      + rewrite (Tail t (S i) _ (or_introl eq_refl) Hk o1 El). reflexivity.
    - destruct (emit_loop w false t (N.of_nat (S i)) [a] (npos w)) as [[o1 q1]| |] eqn:El; cbn [bind] in H; try discriminate.
      injection H as <- Hq. subst q1. rewrite (IH (S i) o1); [reflexivity| | | |exact El].
      + unfold offset in *. lia.
      + lia.
      + intros Hs. specialize (Hsp Hs). lia. }
  change 0%N with (N.of_nat 0) in *. rewrite (G text 0 (edited [a] 0 text)); [reflexivity| | | |exact One].
  - destruct Hi. cbn. lia.
  - exact Hw.
  - intros Hs. destruct Hi as [_ Hi]. specialize (Hi Hs). exact Hi.
Qed.
Print Assumptions C90_release_same_offset_refuted.
Example C90_nonvacuous :
  emit 64 true [1; 2; 3]%N [Op InsertAt 1 0 [7]; Op InsertAt 1 0 [8]]%N = Fault AssertFail
  /\ emit 64 false [1; 2; 3]%N [Op InsertAt 1 0 [7]; Op InsertAt 1 0 [8]; Op InsertAt 2 0 [9]]%N
     = Ok ([1; 7; 2; 3]%N, [Op InsertAt 1 0 [8]; Op InsertAt 2 0 [9]]%N).
Proof. split; vm_compute; reflexivity. Qed.
